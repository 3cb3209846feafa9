From Verif Require Import Common Raii_Model Raii_Spec.
Local Open Scope nat_scope.

(** ** Counting *)
Definition is (v : option nat) (o : nat) : Z := match v with Some o' => if o' =? o then 1%Z else 0%Z | None => 0%Z end.
Definition isr (v : option (option nat)) (o : nat) : Z := match v with Some v => is v o | None => 0%Z end.
Fixpoint sum (vs : list (option nat)) (o : nat) : Z := match vs with [] => 0 | v :: vs => is v o + sum vs o end%Z.
Definition cnt (e : env) (o : nat) : Z := sum (map (fun p => val (snd p)) e) o.
Definition W (s : state) (o : nat) : Z :=
  (Z.of_nat (times (is_dropped o) (log s)) + Z.of_nat (times (is_lost o) (log s)) - Z.of_nat (times (is_created o) (log s)))%Z.
Definition lost (s : state) (o : nat) : nat := times (is_lost o) (log s).
(** Objects are created once, in order *)
Definition wf (s : state) : Prop := forall o, times (is_created o) (log s) = if o <? next s then 1 else 0.
Definition okenv (e : env) : Prop := Forall (fun p => flag (snd p) = false -> val (snd p) = None) e.

Lemma is_nonneg v o : (0 <= is v o)%Z.
Proof. destruct v; cbn; [destruct (_ =? _)|]; lia. Qed.
Lemma sum_nonneg vs o : (0 <= sum vs o)%Z.
Proof. induction vs as [|v vs IH]; cbn; [lia|]. assert (H := is_nonneg v o). lia. Qed.
Lemma sum_app a b o : sum (a ++ b) o = (sum a o + sum b o)%Z.
Proof. induction a as [|v a IH]; cbn; [reflexivity|]. rewrite IH. lia. Qed.
Lemma cnt_app a b o : cnt (a ++ b) o = (cnt a o + cnt b o)%Z.
Proof. unfold cnt. rewrite map_app. apply sum_app. Qed.
Lemma cnt_nonneg e o : (0 <= cnt e o)%Z.
Proof. apply sum_nonneg. Qed.
Lemma cnt_cons x sl e o : cnt ((x, sl) :: e) o = (is (val sl) o + cnt e o)%Z.
Proof. reflexivity. Qed.

Lemma find_put x sl sl' : forall e, find x e = Some sl ->
  map fst (put x sl' e) = map fst e /\ (forall o, cnt (put x sl' e) o = cnt e o - is (val sl) o + is (val sl') o)%Z.
Proof.
  induction e as [|[y t] e IH]; cbn [find put]; [discriminate|]. destruct (x =? y).
  - intros [= ->]. split; [reflexivity|]. intros o. rewrite !cnt_cons. lia.
  - intros F. destruct (IH F) as [A B]. split; [cbn; now rewrite A|]. intros o. rewrite !cnt_cons, B. lia.
Qed.
Lemma okenv_put x sl : (flag sl = false -> val sl = None) -> forall e, okenv e -> okenv (put x sl e).
Proof.
  intros H. induction e as [|[y t] e IH]; intros O; cbn [put]; [constructor|].
  apply Forall_cons_iff in O as [A B]. destruct (x =? y); constructor; auto. now apply IH.
Qed.
Lemma okenv_find x sl e : okenv e -> find x e = Some sl -> flag sl = false -> val sl = None.
Proof.
  intros O. induction O as [|[y t] e A O IH]; cbn [find]; [discriminate|]. destruct (x =? y); [|exact IH].
  now intros [= ->].
Qed.
Lemma find_some x e : In x (map fst e) -> exists sl, find x e = Some sl.
Proof.
  induction e as [|[y t] e IH]; cbn; [easy|]. intros [->|I]; [rewrite Nat.eqb_refl; eauto|].
  destruct (x =? y); eauto.
Qed.
Lemma find_app_not x a b : ~ In x (map fst a) -> find x (a ++ b) = find x b.
Proof.
  induction a as [|[y t] a IH]; cbn; [reflexivity|]. intros H. destruct (Nat.eqb_spec x y) as [->|]; [tauto|].
  apply IH. tauto.
Qed.

(** ** Relations between before and after *)
Definition lost_same (s s' : state) : Prop := forall o, lost s' o = lost s o.
Definition rel (strict : bool) (e : env) (s : state) (e' : env) (s' : state) (r : nat -> Z) : Prop :=
  (forall o, cnt e o + W s o = cnt e' o + W s' o + r o)%Z /\
  (wf s -> wf s') /\
  (strict = true -> okenv e -> okenv e' /\ lost_same s s').
Definition trel (strict : bool) (e : env) (s s' : state) : Prop :=
  (forall o, W s' o <= cnt e o + W s o)%Z /\ (wf s -> wf s') /\ (strict = true -> okenv e -> lost_same s s').
Definition nil_r : nat -> Z := fun _ => 0%Z.

Ltac rl := unfold rel, trel; split; [|split].

Lemma rel_refl b e s : rel b e s e s nil_r.
Proof. unfold nil_r. rl; auto. - intros o. lia. - intros _ O. split; [exact O|]. now intros o. Qed.
Lemma trel_refl b e s : trel b e s s.
Proof. rl; auto. - intros o. assert (H := cnt_nonneg e o). lia. - now intros _ _ o. Qed.
Lemma rel_trans b e s e1 s1 r1 e2 s2 r2 : rel b e s e1 s1 r1 -> rel b e1 s1 e2 s2 r2 ->
  rel b e s e2 s2 (fun o => r1 o + r2 o)%Z.
Proof.
  intros (A & B & C) (A' & B' & C'). rl.
  - intros o. specialize (A o). specialize (A' o). lia.
  - auto.
  - intros Sb O. destruct (C Sb O) as [O1 L1]. destruct (C' Sb O1) as [O2 L2]. split; [exact O2|].
    intros o. rewrite (L2 o). apply L1.
Qed.
Lemma rel_r b e s e' s' r r' : (forall o, r o = r' o) -> rel b e s e' s' r -> rel b e s e' s' r'.
Proof. intros E (A & B & C). rl; auto. intros o. rewrite <- E. apply A. Qed.
Lemma rel_trans0 b e s e1 s1 e2 s2 r : rel b e s e1 s1 nil_r -> rel b e1 s1 e2 s2 r -> rel b e s e2 s2 r.
Proof. intros A B. eapply rel_r; [|eapply rel_trans; eauto]. intros o. reflexivity. Qed.
Lemma rel_trel b e s e1 s1 r s2 : rel b e s e1 s1 r -> (forall o, 0 <= r o)%Z -> trel b e1 s1 s2 -> trel b e s s2.
Proof.
  intros (A & B & C) P (A' & B' & C'). rl.
  - intros o. specialize (A o). specialize (A' o). specialize (P o). lia.
  - auto.
  - intros Sb O. destruct (C Sb O) as [O1 L1]. assert (L2 := C' Sb O1). intros o. rewrite (L2 o). apply L1.
Qed.
Lemma rel_weak b e s e1 s1 r : rel b e s e1 s1 r -> (forall o, 0 <= r o)%Z -> trel b e s s1.
Proof. intros H P. eapply rel_trel; eauto using trel_refl. Qed.

Lemma W_create s o : W (create s) o = (W s o - is (Some (next s)) o)%Z.
Proof. unfold W, create. cbn [log times is_dropped is_lost is_created is]. destruct (next s =? o); lia. Qed.
Lemma wf_create s : wf s -> wf (create s).
Proof.
  intros H o. specialize (H o). unfold create. cbn [log next times is_created].
  rewrite H. destruct (Nat.eqb_spec (next s) o), (Nat.ltb_spec o (next s)), (Nat.ltb_spec o (S (next s))); lia.
Qed.
Lemma W_say_drop s v o : W (say (Dropped v) s) o = (W s o + is v o)%Z.
Proof. unfold W, say. destruct v as [o'|]; cbn [log times is_dropped is_lost is_created is]; [destruct (o' =? o)|]; lia. Qed.
Lemma W_lose s v o : W (lose v s) o = (W s o + is v o)%Z.
Proof.
  unfold lose. destruct v as [o'|]; cbn [is]; [|lia]. unfold W, say. cbn [log times is_dropped is_lost is_created is].
  destruct (o' =? o); lia.
Qed.
Lemma wf_drop s v : wf s -> wf (say (Dropped v) s).
Proof. intros H o. specialize (H o). unfold say. cbn [log next times is_created]. exact H. Qed.
Lemma wf_lose s v : wf s -> wf (lose v s).
Proof. intros H. destruct v; [|exact H]. intros o. specialize (H o). unfold lose, say. cbn [log next times is_created]. exact H. Qed.

(** ** Running drops: the variables in the middle of the environment *)
Lemma drops_mid b mid : forall pre post s, NoDup (map fst (pre ++ mid ++ post)) ->
  exists s', drops (map fst mid) (pre ++ mid ++ post) s = Some s' /\
    (forall o, W s' o = W s o + cnt mid o)%Z /\ (wf s -> wf s') /\
    (b = true -> okenv mid -> lost_same s s').
Proof.
  induction mid as [|[x sl] mid IH]; intros pre post s ND.
  - exists s. splits; auto. + intros o. cbn. lia. + intros _ _ o. reflexivity.
  - cbn [map drops fst]. unfold drop.
    assert (NI : ~ In x (map fst pre)).
    { rewrite map_app in ND. cbn in ND. apply NoDup_remove_2 in ND. intros I. apply ND. apply in_or_app. now left. }
    rewrite find_app_not by exact NI. cbn [app find]. rewrite Nat.eqb_refl.
    set (s1 := if flag sl then _ else _).
    destruct (IH (pre ++ [(x, sl)]) post s1) as (s' & E & A & B & C).
    { now rewrite <- app_assoc. }
    exists s'. replace (pre ++ (x, sl) :: mid ++ post) with ((pre ++ [(x, sl)]) ++ mid ++ post) by now rewrite <- app_assoc.
    assert (W1 : forall o, W s1 o = (W s o + is (val sl) o)%Z).
    { intros o. unfold s1. destruct (flag sl); [apply W_say_drop|apply W_lose]. }
    splits; auto.
    + intros o. rewrite A, cnt_cons, W1. lia.
    + intros Hw. apply B. unfold s1. destruct (flag sl); [now apply wf_drop|now apply wf_lose].
    + intros Sb O. apply Forall_cons_iff in O as [O1 O2]. intros o. rewrite (C Sb O2 o).
      unfold s1. cbn in O1. destruct (flag sl); [reflexivity|]. now rewrite O1.
Qed.

(** ** Ends of blocks *)
Lemma keep_all {A} n (l : list A) : length l <= n -> keep n l = l.
Proof. intros H. unfold keep. replace (length l - n) with 0 by lia. reflexivity. Qed.
Lemma keep_length {A} n (l : list A) : n <= length l -> length (keep n l) = n.
Proof. intros H. unfold keep. rewrite skipn_length. lia. Qed.
Lemma keep_map {A B} (f : A -> B) n l : keep n (map f l) = map f (keep n l).
Proof.
  unfold keep. rewrite map_length. generalize (length l - n). intros k. revert k.
  induction l as [|x l IH]; intros [|k]; cbn; auto.
Qed.
Lemma keep_keep {A} a b (l : list A) : a <= b -> keep a (keep b l) = keep a l.
Proof.
  intros H. destruct (Nat.le_gt_cases (length l) b) as [L|L]; [now rewrite (keep_all b l)|].
  unfold keep at 1. rewrite (keep_length b l) by lia. unfold keep. rewrite skipn_skipn'. f_equal. lia.
Qed.
Lemma keep_cons {A} n x (l : list A) : n <= length l -> keep n (x :: l) = keep n l.
Proof. intros H. unfold keep. cbn [length]. now replace (S (length l) - n) with (S (length l - n)) by lia. Qed.
Lemma above_keep {A} n (l : list A) : firstn (length l - n) l ++ keep n l = l.
Proof. apply firstn_skipn. Qed.
Lemma above_map n (e : env) : above n (map fst e) = map fst (firstn (length e - n) e).
Proof. unfold above. now rewrite map_length, firstn_map. Qed.

(** execs over a list of drops *)
Section Exec.
Variable prog : list func.
Variable choose : nat -> bool.
Notation execs := (execs prog choose).
Notation exec := (exec prog choose).
Notation eval := (eval prog choose).
Notation evals := (evals prog choose).
Notation call := (call prog choose).

Lemma execs_S n t l e s : execs (S n) (t :: l) e s =
  match exec n t e s with (e, s, Normal) => execs n l e s | r => r end.
Proof. reflexivity. Qed.

Lemma exec_S n t e s : exec (S n) t e s =
    match t with
    | TLet x ex =>
      
      if match ex with Var y => y =? x | _ => false end then (e, s, Bad)
      else match eval n ex e s with
      | (e, s, Got v) => ((x, mkslot true v) :: e, s, Normal)
      | (e, s, GBad) => (e, s, Bad)
      | (e, s, GTimeout) => (e, s, Timeout)
      end
    | TDecl x => ((x, mkslot true None) :: e, s, Normal)
    | TAssign x ex =>
      match eval n ex e s with
      | (e, s, Got v) =>
        match find x e with
        | Some sl => (put x (mkslot (flag sl) v) e, lose (val sl) s, Normal)
        | None => (e, s, Bad)
        end
      | (e, s, GBad) => (e, s, Bad)
      | (e, s, GTimeout) => (e, s, Timeout)
      end
    | TDo f args =>
      match evals n args e s with
      | (e, s, Got vs) =>
        match call n f vs s with
        | (s, Got (Some v)) => (e, lose v s, Normal)
        | (s, Got None) => (e, s, Normal)
        | (s, GBad) => (e, s, Bad)
        | (s, GTimeout) => (e, s, Timeout)
        end
      | (e, s, GBad) => (e, s, Bad)
      | (e, s, GTimeout) => (e, s, Timeout)
      end
    | TDrop x =>
      match drop x e s with Some s => (e, s, Normal) | None => (e, s, Bad) end
    | TBlock l =>
      match execs n l e s with (e', s, o) => (keep (length e) e', s, o) end
    | TIf t f =>
      let s' := mkst (next s) (S (tick s)) (log s) in
      match execs n (if choose (tick s) then t else f) e s' with (e', s, o) => (keep (length e) e', s, o) end
    | TWhile l =>
      let s' := mkst (next s) (S (tick s)) (log s) in
      if choose (tick s) then
        match execs n l e s' with
        | (e', s, Normal) | (e', s, Continued) => exec n (TWhile l) (keep (length e) e') s
        | (e', s, Broke) => (keep (length e) e', s, Normal)
        | (e', s, o) => (keep (length e) e', s, o)
        end
      else (e, s', Normal)
    | TBreak => (e, s, Broke)
    | TContinue => (e, s, Continued)
    | TRetVar x ds =>
      match find x e with
      | None => (e, s, Bad)
      | Some sl =>
        let e := put x (mkslot (flag sl) None) e in
        match drops ds e s with Some s => (e, s, Returned (Some (val sl))) | None => (e, s, Bad) end
      end
    | TRetVal ex ds =>
      match eval n ex e s with
      | (e, s, Got v) =>
        match drops ds e s with Some s => (e, s, Returned (Some v)) | None => (e, s, Bad) end
      | (e, s, GBad) => (e, s, Bad)
      | (e, s, GTimeout) => (e, s, Timeout)
      end
    | TReturn => (e, s, Returned None)
    end.
Proof. reflexivity. Qed.

Lemma execs_drops b mid : forall n rest pre post s e' s' o, NoDup (map fst (pre ++ mid ++ post)) ->
  execs n (map TDrop (map fst mid) ++ rest) (pre ++ mid ++ post) s = (e', s', o) ->
  (o = Timeout /\ exists m1, (exists m2, mid = m1 ++ m2) /\
      (forall x, W s' x = W s x + cnt m1 x)%Z /\ (wf s -> wf s') /\ (b = true -> okenv m1 -> lost_same s s')) \/
  (exists m s2, execs m rest (pre ++ mid ++ post) s2 = (e', s', o) /\ m <= n /\
      (forall x, W s2 x = W s x + cnt mid x)%Z /\ (wf s -> wf s2) /\ (b = true -> okenv mid -> lost_same s s2)).
Proof.
  induction mid as [|[x sl] mid IH]; intros n rest pre post s e' s' o ND H.
  - right. exists n, s. splits; auto. + intros y. cbn. lia. + intros _ _ y. reflexivity.
  - assert (TO : (e', s', o) = (pre ++ ((x, sl) :: mid) ++ post, s, Timeout) ->
      o = Timeout /\ exists m1, (exists m2, (x, sl) :: mid = m1 ++ m2) /\
      (forall x, W s' x = W s x + cnt m1 x)%Z /\ (wf s -> wf s') /\ (b = true -> okenv m1 -> lost_same s s')).
    { intros [= -> -> ->]. split; [reflexivity|]. exists []. splits; auto.
      - now exists ((x, sl) :: mid). - intros y. cbn. lia. - intros _ _ y. reflexivity. }
    destruct n as [|n]; [left; apply TO; now rewrite <- H|].
    cbn [map app fst] in H. rewrite execs_S in H.
    destruct n as [|n]; [left; apply TO; now rewrite <- H|].
    destruct (drops_mid b [(x, sl)] pre (mid ++ post) s) as (s1 & E & A & B & C); [exact ND|].
    cbn [map fst drops app] in E.
    cbn [exec] in H. change (exec (S n) (TDrop x) (pre ++ (x, sl) :: mid ++ post) s) with
      (match drop x (pre ++ (x, sl) :: mid ++ post) s with Some s0 => (pre ++ (x, sl) :: mid ++ post, s0, Normal)
       | None => (pre ++ (x, sl) :: mid ++ post, s, Bad) end) in H.
    destruct (drop x (pre ++ (x, sl) :: mid ++ post) s) as [s1'|] eqn:D; [|discriminate]. injection E as ->.
    replace (pre ++ (x, sl) :: mid ++ post) with ((pre ++ [(x, sl)]) ++ mid ++ post) in H by now rewrite <- app_assoc.
    destruct (IH (S n) rest (pre ++ [(x, sl)]) post s1 e' s' o) as [(Eo & m1 & (m2 & ->) & A1 & B1 & C1)|(m & s2 & X & L & A1 & B1 & C1)]; auto.
    { now rewrite <- app_assoc. }
    + left. split; [exact Eo|]. exists ((x, sl) :: m1). splits.
      * now exists m2.
      * intros y. rewrite A1, A, !cnt_cons. cbn. unfold cnt. cbn. lia.
      * auto.
      * intros Sb O. apply Forall_cons_iff in O as [O1 O2]. intros y. rewrite (C1 Sb O2 y). apply C; auto. now constructor.
    + right. exists m, s2. replace (pre ++ ((x, sl) :: mid) ++ post) with ((pre ++ [(x, sl)]) ++ mid ++ post) by now rewrite <- app_assoc.
      splits; auto.
      * intros y. rewrite A1, A, !cnt_cons. unfold cnt. cbn. lia.
      * intros Sb O. apply Forall_cons_iff in O as [O1 O2]. intros y. rewrite (C1 Sb O2 y). apply C; auto. now constructor.
Qed.

Lemma execs_drops0 b e mid post n rest s e' s' o : e = mid ++ post -> NoDup (map fst e) ->
  execs n (map TDrop (map fst mid) ++ rest) e s = (e', s', o) ->
  (o = Timeout /\ exists m1, (exists m2, mid = m1 ++ m2) /\
      (forall x, W s' x = W s x + cnt m1 x)%Z /\ (wf s -> wf s') /\ (b = true -> okenv m1 -> lost_same s s')) \/
  (exists m s2, execs m rest e s2 = (e', s', o) /\ m <= n /\
      (forall x, W s2 x = W s x + cnt mid x)%Z /\ (wf s -> wf s2) /\ (b = true -> okenv mid -> lost_same s s2)).
Proof. intros ->. exact (execs_drops b mid n rest [] post s e' s' o). Qed.

Section Main.
Variable strict : bool.
Hypothesis okp : ok_prog prog strict.

Definition jumps (bnds : list nat) (stack : list name) (e : env) (s : state) (e' : env) (s' : state) (o : out) : Prop :=
  match o with
  | Broke | Continued =>
    match bnds with
    | b :: _ => map fst (keep b e') = keep b stack /\ rel strict e s (keep b e') s' nil_r
    | [] => True
    end
  | Returned v => rel strict e s [] s' (isr v)
  | Timeout => trel strict e s s'
  | Normal | Bad => True
  end.
Definition bnd_ok (bnds : list nat) (stack : list name) : Prop :=
  match bnds with b :: _ => b <= length stack | [] => True end.

Definition Pe n := forall x e s e' s' r, eval n x e s = (e', s', r) ->
  match r with
  | Got v => map fst e' = map fst e /\ rel strict e s e' s' (is v)
  | GTimeout => trel strict e s s'
  | GBad => True
  end.
Definition Pes n := forall xs e s e' s' r, evals n xs e s = (e', s', r) ->
  match r with
  | Got vs => map fst e' = map fst e /\ rel strict e s e' s' (sum vs)
  | GTimeout => trel strict e s s'
  | GBad => True
  end.
Definition argenv (vs : list (option nat)) : env := map (fun v => (0, mkslot true v)) vs.
Definition Pc n := forall f vs s s' r, call n f vs s = (s', r) ->
  match r with
  | Got v => rel strict (argenv vs) s [] s' (isr v) /\
      (v <> None -> exists fn, nth_error prog f = Some fn /\ returns fn = true)
  | GTimeout => trel strict (argenv vs) s s'
  | GBad => True
  end.
Definition single (st : stmt) : Prop := match st with Break | Continue | Return None => False | _ => True end.
Definition Px n := forall st stack bnds t stack' e s e' s' o,
  emit st stack bnds = ([t], stack') -> single st -> ok_stmt prog strict stack st -> NoDup stack -> map fst e = stack ->
  bnd_ok bnds stack -> exec n t e s = (e', s', o) ->
  (o = Normal -> map fst e' = stack' /\ rel strict e s e' s' nil_r) /\ jumps bnds stack e s e' s' o.
Definition Pl n := forall l base stack bnds e s e' s' o,
  ok_items prog strict stack l -> NoDup stack -> map fst e = stack -> base <= length stack ->
  bnd_ok bnds stack -> execs n (emit_items l base stack bnds) e s = (e', s', o) ->
  (o = Normal -> map fst (keep base e') = keep base stack /\ rel strict e s (keep base e') s' nil_r) /\
  jumps bnds stack e s e' s' o.

Lemma argenv_cnt vs o : cnt (argenv vs) o = sum vs o.
Proof. unfold cnt, argenv. rewrite map_map. cbn. now rewrite map_id. Qed.
Lemma argenv_ok vs : okenv (argenv vs).
Proof. unfold okenv, argenv. apply Forall_forall. intros p I. apply in_map_iff in I as (v & <- & _). discriminate. Qed.

(** A call after its arguments *)
Lemma call_rel e s e1 s1 vs s2 v : rel strict e s e1 s1 (sum vs) -> rel strict (argenv vs) s1 [] s2 v ->
  rel strict e s e1 s2 v.
Proof.
  intros (A & B & C) (A' & B' & C'). rl.
  - intros o. specialize (A o). specialize (A' o). rewrite argenv_cnt in A'. cbn in A'. lia.
  - auto.
  - intros Sb O. destruct (C Sb O) as [O1 L1]. split; [exact O1|]. destruct (C' Sb (argenv_ok vs)) as [_ L2].
    intros o. rewrite (L2 o). apply L1.
Qed.
Lemma call_trel e s e1 s1 vs s2 : rel strict e s e1 s1 (sum vs) -> trel strict (argenv vs) s1 s2 ->
  trel strict e s s2.
Proof.
  intros (A & B & C) (A' & B' & C'). rl.
  - intros o. specialize (A o). specialize (A' o). rewrite argenv_cnt in A'. assert (H := cnt_nonneg e1 o). lia.
  - auto.
  - intros Sb O. destruct (C Sb O) as [O1 L1]. assert (L2 := C' Sb (argenv_ok vs)).
    intros o. rewrite (L2 o). apply L1.
Qed.

Lemma Pe_S n : Pe n -> Pes n -> Pc n -> Pe (S n).
Proof.
  intros IE IS IC x e s e' s' r H. destruct x as [|y|f args].
  - cbn in H. injection H as <- <- <-. split; [reflexivity|]. rl.
    + intros o. rewrite W_create. lia.
    + apply wf_create.
    + intros _ O. split; [exact O|]. intros o. reflexivity.
  - cbn in H. destruct (find y e) as [sl|] eqn:F; injection H as <- <- <-; [|exact I].
    destruct (find_put y sl (mkslot false None) e F) as [A B]. split; [exact A|]. rl.
    + intros o. rewrite B. cbn. lia.
    + auto.
    + intros _ O. split; [now apply okenv_put|]. now intros o.
  - change (eval (S n) (Call f args) e s) with
      (match evals n args e s with
      | (e, s, Got vs) =>
        match call n f vs s with
        | (s, Got (Some v)) => (e, s, Got v)
        | (s, Got None) | (s, GBad) => (e, s, GBad)
        | (s, GTimeout) => (e, s, GTimeout)
        end
      | (e, s, GBad) => (e, s, GBad)
      | (e, s, GTimeout) => (e, s, GTimeout)
      end) in H.
    destruct (evals n args e s) as [[e1 s1] r1] eqn:E1. assert (Q1 := IS _ _ _ _ _ _ E1).
    destruct r1 as [vs| |]; [|now injection H as <- <- <-|now injection H as <- <- <-].
    destruct (call n f vs s1) as [s2 r2] eqn:E2. assert (Q2 := IC _ _ _ _ _ E2).
    destruct Q1 as [N1 R1]. destruct r2 as [[v|]| |]; injection H as <- <- <-; try exact I.
    + split; [exact N1|]. destruct Q2 as [Q2 _]. eapply call_rel; eauto.
    + eapply call_trel; eauto.
Qed.

Lemma Pes_S n : Pe n -> Pes n -> Pes (S n).
Proof.
  intros IE IS xs e s e' s' r H. destruct xs as [|x xs].
  - cbn in H. injection H as <- <- <-. split; [reflexivity|]. apply rel_refl.
  - change (evals (S n) (x :: xs) e s) with
      (match eval n x e s with
      | (e, s, Got v) =>
        match evals n xs e s with
        | (e, s, Got vs) => (e, s, Got (v :: vs))
        | r => r
        end
      | (e, s, GBad) => (e, s, GBad)
      | (e, s, GTimeout) => (e, s, GTimeout)
      end) in H.
    destruct (eval n x e s) as [[e1 s1] r1] eqn:E1. assert (Q1 := IE _ _ _ _ _ _ E1).
    destruct r1 as [v| |]; [|now injection H as <- <- <-|now injection H as <- <- <-].
    destruct (evals n xs e1 s1) as [[e2 s2] r2] eqn:E2. assert (Q2 := IS _ _ _ _ _ _ E2).
    destruct Q1 as [N1 R1]. destruct r2 as [vs| |]; injection H as <- <- <-.
    + destruct Q2 as [N2 R2]. split; [congruence|]. exact (rel_trans _ _ _ _ _ _ _ _ _ R1 R2).
    + exact I.
    + eapply rel_trel; eauto. intros o. apply is_nonneg.
Qed.

Lemma Pl_nil n base stack bnds e s e' s' o : NoDup stack -> map fst e = stack -> base <= length stack ->
  execs n (map TDrop (above base stack)) e s = (e', s', o) ->
  (o = Normal -> map fst (keep base e') = keep base stack /\ rel strict e s (keep base e') s' nil_r) /\
  jumps bnds stack e s e' s' o.
Proof.
  intros ND <- LB H. rewrite above_map in H. rewrite <- (app_nil_r (map TDrop _)) in H.
  assert (SP := above_keep base e). set (mid := firstn (length e - base) e) in *.
  destruct (execs_drops0 strict e mid (keep base e) n [] s e' s' o (eq_sym SP) ND H)
    as [(-> & m1 & (m2 & Em) & A & B & C)|(m & s2 & X & L & A & B & C)].
  - split; [discriminate|]. cbn. rl; auto.
    + intros x. rewrite A. rewrite <- SP at 1. rewrite Em, !cnt_app.
      assert (H1 := cnt_nonneg m2 x). assert (H2 := cnt_nonneg (keep base e) x). lia.
    + intros Sb O. apply C; auto. rewrite <- SP, Em in O. apply Forall_app in O as [O _]. now apply Forall_app in O as [O _].
  - assert (R : rel strict e s (keep base e) s2 nil_r).
    { rl; auto.
      - intros x. rewrite A. rewrite <- SP at 1. rewrite cnt_app. unfold nil_r. lia.
      - intros Sb O. rewrite <- SP in O. apply Forall_app in O as [O1 O2]. split; [exact O2|]. now apply C. }
    destruct m; cbn in X; injection X as <- <- <-.
    + split; [discriminate|]. eapply rel_weak; [exact R|]. intros x. unfold nil_r. lia.
    + split; [|exact I]. intros _. split; [symmetry; apply keep_map|exact R].
Qed.

(** break and continue *)
Lemma Pl_jump n j rest b bnds stack e s e' s' o : j = TBreak \/ j = TContinue -> NoDup stack -> map fst e = stack -> b <= length stack ->
  execs n (map TDrop (above b stack) ++ j :: rest) e s = (e', s', o) ->
  o <> Normal /\ jumps (b :: bnds) stack e s e' s' o.
Proof.
  intros J ND <- LB H. rewrite above_map in H.
  assert (SP := above_keep b e). set (mid := firstn (length e - b) e) in *.
  destruct (execs_drops0 strict e mid (keep b e) n (j :: rest) s e' s' o (eq_sym SP) ND H)
    as [(-> & m1 & (m2 & Em) & A & B & C)|(m & s2 & X & L & A & B & C)].
  - split; [discriminate|]. cbn. rl; auto.
    + intros x. rewrite A. rewrite <- SP at 1. rewrite Em, !cnt_app.
      assert (H1 := cnt_nonneg m2 x). assert (H2 := cnt_nonneg (keep b e) x). lia.
    + intros Sb O. apply C; auto. rewrite <- SP, Em in O. apply Forall_app in O as [O _]. now apply Forall_app in O as [O _].
  - assert (R : rel strict e s (keep b e) s2 nil_r).
    { rl; auto.
      - intros x. rewrite A. rewrite <- SP at 1. rewrite cnt_app. unfold nil_r. lia.
      - intros Sb O. rewrite <- SP in O. apply Forall_app in O as [O1 O2]. split; [exact O2|]. now apply C. }
    assert (T : trel strict e s s2) by (eapply rel_weak; [exact R|]; intros x; unfold nil_r; lia).
    destruct m as [|[|m]]; destruct J as [-> | ->]; cbn in X; injection X as <- <- <-; (split; [discriminate|]); cbn; auto;
      (split; [symmetry; apply keep_map|exact R]).
Qed.

(** return without a value *)
Lemma Pl_ret n rest bnds stack e s e' s' o : NoDup stack -> map fst e = stack ->
  execs n (map TDrop stack ++ TReturn :: rest) e s = (e', s', o) ->
  o <> Normal /\ jumps bnds stack e s e' s' o.
Proof.
  intros ND <- H.
  destruct (execs_drops0 strict e e [] n (TReturn :: rest) s e' s' o (eq_sym (app_nil_r e)) ND H)
    as [(-> & m1 & (m2 & Em) & A & B & C)|(m & s2 & X & L & A & B & C)].
  - split; [discriminate|]. cbn. rl; auto.
    + intros x. rewrite A. rewrite Em, !cnt_app.
      assert (H1 := cnt_nonneg m2 x). lia.
    + intros Sb O. apply C; auto. rewrite Em in O. now apply Forall_app in O as [O _].
  - assert (R : rel strict e s [] s2 nil_r).
    { rl; auto.
      - intros x. rewrite A. unfold nil_r. cbn. lia.
      - intros Sb O. split; [constructor|]. now apply C. }
    assert (T : trel strict e s s2) by (eapply rel_weak; [exact R|]; intros x; unfold nil_r; lia).
    destruct m as [|[|m]]; cbn in X; injection X as <- <- <-; (split; [discriminate|]); cbn; auto.
Qed.
(** ** Functions *)
Lemma push_all ps : forall acc, (N.of_nat (length acc + length ps) <= 1024)%N -> fold_left push ps acc = rev ps ++ acc.
Proof.
  induction ps as [|x ps IH]; intros acc L; cbn [fold_left rev app]; [reflexivity|]. cbn [length] in L.
  unfold push at 2. destruct (N.ltb_spec (N.of_nat (length acc)) 1024); [|lia].
  rewrite IH by (cbn [length]; lia). now rewrite <- app_assoc.
Qed.
Lemma combine_fst {A B} (a : list A) : forall b : list B, length b = length a -> map fst (combine a b) = a.
Proof. induction a as [|x a IH]; intros [|y b] L; cbn in *; try discriminate; f_equal; auto. Qed.
Lemma combine_snd {A B} (a : list A) : forall b : list B, length b = length a -> map snd (combine a b) = b.
Proof. induction a as [|x a IH]; intros [|y b] L; cbn in *; try discriminate; f_equal; auto. Qed.
Lemma sum_rev vs o : sum (rev vs) o = sum vs o.
Proof. induction vs as [|v vs IH]; cbn [rev]; [reflexivity|]. rewrite sum_app, IH. cbn. lia. Qed.

Lemma Pc_S n : Pl n -> Pc (S n).
Proof.
  intros IL f vs s s' r H.
  change (call (S n) f vs s) with
    (match nth_error prog f with
    | None => (s, GBad)
    | Some fn =>
      if length vs =? length (params fn) then
        let e := rev (combine (params fn) (map (mkslot true) vs)) in
        match execs n (emit_func fn) e s, returns fn with
        | (_, s, Returned (Some v)), true => (s, Got (Some v))
        | (_, s, Returned None), false | (_, s, Normal), false => (s, Got None)
        | (_, s, Timeout), _ => (s, GTimeout)
        | (_, s, _), _ => (s, GBad)
        end
      else (s, GBad)
    end) in H.
  destruct (nth_error prog f) as [fn|] eqn:Ef; [|now injection H as <- <-].
  destruct (Nat.eqb_spec (length vs) (length (params fn))) as [Lv|]; [|now injection H as <- <-].
  assert (OK : ok_func prog strict fn).
  { unfold ok_prog in okp. rewrite Forall_forall in okp. apply okp. eapply nth_error_In; eauto. }
  destruct OK as (ND & L1024 & OI).
  cbn zeta in H. set (e := rev (combine (params fn) (map (mkslot true) vs))) in *.
  assert (Ne : map fst e = rev (params fn)).
  { unfold e. rewrite map_rev, combine_fst by now rewrite map_length. reflexivity. }
  assert (Ce : forall o, cnt e o = sum vs o).
  { intros o. unfold cnt, e. rewrite map_rev, sum_rev. rewrite <- map_map with (f := snd) (g := val), combine_snd by now rewrite map_length.
    rewrite map_map. cbn. now rewrite map_id. }
  assert (Oe : okenv e).
  { unfold okenv, e. apply Forall_forall. intros p Ip. apply in_rev in Ip. destruct p as [x sl]. apply in_combine_r in Ip.
    apply in_map_iff in Ip as (v & <- & _). discriminate. }
  assert (Code : emit_func fn = emit_items (Then (Block (body fn)) Nil) 0 (rev (params fn)) []).
  { unfold emit_func. rewrite push_all by (cbn; lia). rewrite app_nil_r. cbn [emit_items emit app]. unfold above.
    rewrite Nat.sub_0_r, firstn_all. reflexivity. }
  rewrite Code in H.
  destruct (execs n (emit_items (Then (Block (body fn)) Nil) 0 (rev (params fn)) []) e s) as [[e1 s1] o1] eqn:E.
  destruct (IL (Then (Block (body fn)) Nil) 0 (rev (params fn)) [] e s e1 s1 o1) as [QN QJ]; auto.
  { cbn. auto. } { now apply NoDup_rev. } { lia. } { exact I. }
  assert (TR : forall r, rel strict e s [] s1 r -> rel strict (argenv vs) s [] s1 r).
  { intros r0 (A & B & C). rl; auto. intros o. rewrite argenv_cnt, <- Ce. apply A. }
  destruct o1 as [| | |[v|]| |]; destruct (returns fn) eqn:Rf; injection H as <- <-; try exact I.
  - split; [|easy]. apply TR. destruct (QN eq_refl) as [_ Q]. unfold keep in Q. rewrite Nat.sub_0_r, skipn_all in Q. exact Q.
  - split; [|intros _; now exists fn]. apply TR. exact QJ.
  - split; [|easy]. apply TR. exact QJ.
  - cbn in QJ. destruct QJ as (A & B & C). rl; auto. intros o. rewrite argenv_cnt, <- Ce. apply A.
  - cbn in QJ. destruct QJ as (A & B & C). rl; auto. intros o. rewrite argenv_cnt, <- Ce. apply A.
Qed.

(** ** Statements *)
Lemma rel_lose e s v : (strict = true -> v = None) -> rel strict e s e (lose v s) (fun o => 0 - is v o)%Z.
Proof.
  intros H. rl.
  - intros o. rewrite W_lose. lia.
  - apply wf_lose.
  - intros Sb O. split; [exact O|]. intros o. now rewrite (H Sb).
Qed.
Lemma rel_put x sl sl' e s : find x e = Some sl -> (strict = true -> okenv e -> flag sl' = false -> val sl' = None) ->
  rel strict e s (put x sl' e) s (fun o => is (val sl) o - is (val sl') o)%Z.
Proof.
  intros F K. destruct (find_put x sl sl' e F) as [_ B]. rl; auto.
  - intros o. rewrite B. lia.
  - intros Sb O. split; [|now intros o]. apply okenv_put; auto.
Qed.
Lemma drops_all e s : NoDup (map fst e) -> exists s', drops (map fst e) e s = Some s' /\ rel strict e s [] s' nil_r.
Proof.
  intros ND. destruct (drops_mid strict e [] [] s) as (s' & E & A & B & C); cbn; rewrite app_nil_r in *; auto.
  exists s'. split; [exact E|]. rl; auto.
  - intros o. rewrite A. unfold nil_r. cbn. lia.
  - intros Sb O. split; [constructor|]. now apply C.
Qed.

Lemma jumps_block bnds stack e s e' s' o : map fst e = stack -> bnd_ok bnds stack ->
  jumps bnds stack e s e' s' o -> jumps bnds stack e s (keep (length e) e') s' o.
Proof.
  intros <- B J. destruct o; auto; destruct bnds as [|b bnds]; auto; cbn in *; rewrite map_length in B;
    rewrite keep_keep by exact B; exact J.
Qed.

Lemma rel_tick b e s e' s' r k : rel b e (mkst (next s) k (log s)) e' s' r -> rel b e s e' s' r.
Proof. exact (fun H => H). Qed.

Lemma block_ok n l stack bnds e s e1 s1 o : Pl n -> ok_items prog strict stack l -> NoDup stack -> map fst e = stack -> bnd_ok bnds stack ->
  execs n (emit_items l (length stack) stack bnds) e s = (e1, s1, o) ->
  (o = Normal -> map fst (keep (length e) e1) = stack /\ rel strict e s (keep (length e) e1) s1 nil_r) /\
  jumps bnds stack e s (keep (length e) e1) s1 o.
Proof.
  intros IL OI ND Ne B E. destruct (IL _ _ _ _ _ _ _ _ _ OI ND Ne (le_n _) B E) as [QN QJ].
  assert (Ln : length e = length stack) by (rewrite <- Ne; now rewrite map_length).
  split.
  - intros Eo. destruct (QN Eo) as [A R]. rewrite <- Ln in A, R. split; [|exact R]. rewrite A, Ln. now apply keep_all.
  - now apply jumps_block.
Qed.

Lemma Px_S n : Pe n -> Pes n -> Pc n -> Px n -> Pl n -> Px (S n).
Proof.
  intros IE IS IC IX IL st stack bnds t stack' e s e' s' o Em Sg Ok ND Ne Bo H.
  destruct st as [x ex|x|x ex|f args|l|tt ff|l| | |[re|]]; cbn [emit] in Em; try contradiction.
  - (* let *)
    injection Em as <- <-. cbn in Ok. destruct Ok as [NI L]. unfold push. destruct (N.ltb_spec (N.of_nat (length stack)) 1024); [|lia].
    rewrite exec_S in H. destruct (match ex with Var y => y =? x | _ => false end).
    { injection H as <- <- <-. split; [discriminate|exact I]. }
    destruct (eval n ex e s) as [[e1 s1] r1] eqn:E1. assert (Q := IE _ _ _ _ _ _ E1).
    destruct r1 as [v| |]; injection H as <- <- <-; (split; [try discriminate|try exact I]).
    + intros _. destruct Q as [N1 R1]. cbn [map fst]. split; [now rewrite N1, Ne|].
      destruct R1 as (A & B & C). rl; auto.
      * intros o. rewrite A, cnt_cons. unfold nil_r. cbn. lia.
      * intros Sb O. destruct (C Sb O) as [O1 L1]. split; [|exact L1]. constructor; [cbn; discriminate|exact O1].
    + exact Q.
  - (* declaration *)
    injection Em as <- <-. cbn in Ok. destruct Ok as [NI L]. unfold push. destruct (N.ltb_spec (N.of_nat (length stack)) 1024); [|lia].
    rewrite exec_S in H. injection H as <- <- <-. split; [|exact I]. intros _. cbn [map fst]. split; [now rewrite Ne|].
    rl; auto.
    + intros o. rewrite cnt_cons. unfold nil_r. cbn. lia.
    + intros Sb O. split; [|now intros o]. constructor; [cbn; discriminate|exact O].
  - (* assignment *)
    injection Em as <- <-. cbn in Ok. rewrite exec_S in H.
    destruct (eval n ex e s) as [[e1 s1] r1] eqn:E1. assert (Q := IE _ _ _ _ _ _ E1).
    destruct r1 as [v| |]; [|injection H as <- <- <-; split; [discriminate|exact I]|injection H as <- <- <-; split; [discriminate|exact Q]].
    destruct Q as [N1 R1]. destruct (find x e1) as [sl|] eqn:F; injection H as <- <- <-; [|split; [discriminate|exact I]].
    split; [|exact I]. intros _. destruct (find_put x sl (mkslot (flag sl) v) e1 F) as [N2 _].
    split; [congruence|].
    assert (R2 := rel_put x sl (mkslot (flag sl) v) e1 s1 F ltac:(congruence)).
    assert (R3 := rel_lose (put x (mkslot (flag sl) v) e1) s1 (val sl) ltac:(congruence)).
    eapply rel_r; [|exact (rel_trans _ _ _ _ _ _ _ _ _ (rel_trans _ _ _ _ _ _ _ _ _ R1 R2) R3)].
    intros y. unfold nil_r. cbn [val]. lia.
  - (* call *)
    injection Em as <- <-. cbn in Ok. rewrite exec_S in H.
    destruct (evals n args e s) as [[e1 s1] r1] eqn:E1. assert (Q := IS _ _ _ _ _ _ E1).
    destruct r1 as [vs| |]; [|injection H as <- <- <-; split; [discriminate|exact I]|injection H as <- <- <-; split; [discriminate|exact Q]].
    destruct Q as [N1 R1]. destruct (call n f vs s1) as [s2 r2] eqn:E2. assert (Q2 := IC _ _ _ _ _ E2).
    destruct r2 as [[v|]| |]; injection H as <- <- <-; (split; [try discriminate|try exact I]).
    + intros _. destruct Q2 as [Q2 K]. split; [congruence|].
      assert (Sv : strict = true -> v = None).
      { intros Sb. destruct (K ltac:(discriminate)) as (fn & Ef & Rf). specialize (Ok Sb fn Ef). congruence. }
      assert (R2 := call_rel _ _ _ _ _ _ _ R1 Q2).
      eapply rel_r; [|exact (rel_trans _ _ _ _ _ _ _ _ _ R2 (rel_lose e1 s2 v Sv))]. intros y. unfold nil_r. cbn [isr]. lia.
    + intros _. destruct Q2 as [Q2 _]. split; [congruence|]. exact (call_rel _ _ _ _ _ _ _ R1 Q2).
    + eapply call_trel; eauto.
  - (* block *)
    injection Em as <- <-. cbn in Ok. rewrite exec_S in H.
    destruct (execs n (emit_items l (length stack) stack bnds) e s) as [[e1 s1] o1] eqn:E. injection H as <- <- <-.
    exact (block_ok n l stack bnds e s e1 s1 o1 IL Ok ND Ne Bo E).
  - (* if *)
    injection Em as <- <-. cbn in Ok. destruct Ok as [Ok1 Ok2]. rewrite exec_S in H.
    cbv zeta in H. set (s0 := mkst _ _ _) in H.
    destruct (choose (tick s)).
    + destruct (execs n (emit_items tt (length stack) stack bnds) e s0) as [[e1 s1] o1] eqn:E. injection H as <- <- <-.
      exact (block_ok n tt stack bnds e s0 e1 s1 o1 IL Ok1 ND Ne Bo E).
    + destruct (execs n (emit_items ff (length stack) stack bnds) e s0) as [[e1 s1] o1] eqn:E. injection H as <- <- <-.
      exact (block_ok n ff stack bnds e s0 e1 s1 o1 IL Ok2 ND Ne Bo E).
  - (* while *)
    injection Em as <- <-. cbn in Ok. rewrite exec_S in H.
    cbv zeta in H. set (s0 := mkst _ _ _) in H.
    destruct (choose (tick s)).
    2:{ injection H as <- <- <-. split; [|exact I]. intros _. split; [exact Ne|]. exact (rel_refl strict e s). }
    destruct (execs n (emit_items l (length stack) stack (length stack :: bnds)) e s0) as [[e1 s1] o1] eqn:E.
    destruct (block_ok n l stack (length stack :: bnds) e s0 e1 s1 o1 IL Ok ND Ne (le_n _) E) as [QN QJ].
    assert (Ln : length e = length stack) by (rewrite <- Ne; now rewrite map_length).
    assert (Again : forall e2, map fst e2 = stack -> rel strict e s e2 s1 nil_r ->
      exec n (TWhile (emit_items l (length stack) stack (length stack :: bnds))) e2 s1 = (e', s', o) ->
      (o = Normal -> map fst e' = stack /\ rel strict e s e' s' nil_r) /\ jumps bnds stack e s e' s' o).
    { intros e2 N2 R2 X. destruct (IX (While l) stack bnds (TWhile (emit_items l (length stack) stack (length stack :: bnds))) stack e2 s1 e' s' o
        eq_refl I Ok ND N2 Bo X) as [XN XJ].
      split.
      - intros Eo. destruct (XN Eo) as [A B]. split; [exact A|]. eapply rel_trans0; eauto.
      - destruct o; cbn in *; auto.
        + destruct bnds; auto. destruct XJ as [A B]. split; [exact A|]. eapply rel_trans0; eauto.
        + destruct bnds; auto. destruct XJ as [A B]. split; [exact A|]. eapply rel_trans0; eauto.
        + eapply rel_trans0; eauto.
        + eapply rel_trel; eauto. intros y. unfold nil_r. lia. }
    assert (Kept : keep (length stack) (keep (length e) e1) = keep (length e) e1) by (rewrite Ln; apply keep_keep; lia).
    destruct o1.
    + destruct (QN eq_refl) as [A R]. exact (Again _ A R H).
    + injection H as <- <- <-. cbn in QJ. rewrite Kept in QJ. destruct QJ as [A R]. split; [|exact I]. intros _.
      rewrite (keep_all (length stack) stack) in A by lia. now split.
    + cbn in QJ. rewrite Kept in QJ. destruct QJ as [A R]. rewrite (keep_all (length stack) stack) in A by lia.
      exact (Again _ A R H).
    + injection H as <- <- <-. split; [discriminate|exact QJ].
    + injection H as <- <- <-. split; [discriminate|exact I].
    + injection H as <- <- <-. split; [discriminate|exact QJ].
  - (* return *)
    assert (V : (exists x, re = Var x /\ t = TRetVar x stack) \/ t = TRetVal re stack).
    { destruct re; injection Em as <- <-; [now right|left; now eexists|now right]. }
    destruct V as [(x & -> & ->)|Et].
    + rewrite exec_S in H. destruct (find x e) as [sl|] eqn:F; [|injection H as <- <- <-; split; [discriminate|exact I]].
      destruct (find_put x sl (mkslot (flag sl) None) e F) as [N1 _].
      assert (R1 := rel_put x sl (mkslot (flag sl) None) e s F ltac:(reflexivity)).
      destruct (drops_all (put x (mkslot (flag sl) None) e) s) as (s2 & D & R2); [rewrite N1, Ne; exact ND|].
      rewrite N1, Ne in D. cbv zeta in H. rewrite D in H. injection H as <- <- <-. split; [discriminate|]. cbn [jumps].
      eapply rel_r; [|exact (rel_trans _ _ _ _ _ _ _ _ _ R1 R2)]. intros y. unfold nil_r. cbn [val is isr]. lia.
    + subst t. rewrite exec_S in H. destruct (eval n re e s) as [[e1 s1] r1] eqn:E1. assert (Q := IE _ _ _ _ _ _ E1).
      destruct r1 as [v| |]; [|injection H as <- <- <-; split; [discriminate|exact I]|injection H as <- <- <-; split; [discriminate|exact Q]].
      destruct Q as [N1 R1]. destruct (drops_all e1 s1) as (s2 & D & R2); [rewrite N1, Ne; exact ND|].
      rewrite N1, Ne in D. rewrite D in H. injection H as <- <- <-. split; [discriminate|]. cbn [jumps].
      eapply rel_r; [|exact (rel_trans _ _ _ _ _ _ _ _ _ R1 R2)]. intros y. unfold nil_r. cbn [isr]. lia.
Qed.

Definition scope_after (st : stmt) (stack : list name) : list name :=
  match st with Let x _ | Decl x => x :: stack | _ => stack end.
Lemma emit_single st stack bnds : single st -> ok_stmt prog strict stack st -> exists t, emit st stack bnds = ([t], scope_after st stack).
Proof.
  intros Sg Ok. destruct st as [x ex|x|x ex|f args|l|tt ff|l| | |[re|]]; try contradiction; cbn [emit scope_after]; try (eexists; reflexivity).
  - destruct Ok as [_ L]. unfold push. destruct (N.ltb_spec (N.of_nat (length stack)) 1024); [|lia]. eexists; reflexivity.
  - destruct Ok as [_ L]. unfold push. destruct (N.ltb_spec (N.of_nat (length stack)) 1024); [|lia]. eexists; reflexivity.
  - destruct re; eexists; reflexivity.
Qed.
Lemma after_or st stack : scope_after st stack = stack \/ exists x, scope_after st stack = x :: stack.
Proof. destruct st; cbn; eauto. Qed.
Lemma after_keep st stack b : b <= length stack -> keep b (scope_after st stack) = keep b stack.
Proof. intros L. destruct (after_or st stack) as [->|(x & ->)]; [reflexivity|]. now apply keep_cons. Qed.
Lemma after_len st stack : length stack <= length (scope_after st stack).
Proof. destruct (after_or st stack) as [->|(x & ->)]; cbn; lia. Qed.
Lemma after_nodup st stack : NoDup stack -> ok_stmt prog strict stack st -> NoDup (scope_after st stack).
Proof. intros ND Ok. destruct st; cbn in *; auto; constructor; tauto. Qed.

Lemma single_dec st : single st \/ st = Break \/ st = Continue \/ st = Return None.
Proof. destruct st as [| | | | | | | | |[|]]; cbn; auto. Qed.

Lemma Pl_S n : Px n -> Pl n -> Pl (S n).
Proof.
  intros IX IL l base stack bnds e s e' s' o OI ND Ne LB Bo H.
  destruct l as [|st l]; [exact (Pl_nil _ _ _ _ _ _ _ _ _ ND Ne LB H)|].
  destruct OI as [Os Ol]. fold ok_stmt in Os. fold ok_items in Ol.
  change (match st with Let x _ | Decl x => x :: stack | _ => stack end) with (scope_after st stack) in Ol.
  destruct (single_dec st) as [Sg|[E|[E|E]]]; [|subst st..].
  - destruct (emit_single st stack bnds Sg Os) as [t Em].
    assert (C : emit_items (Then st l) base stack bnds = t :: emit_items l base (scope_after st stack) bnds).
    { cbn [emit_items]. fold emit. rewrite Em. reflexivity. }
    rewrite C, execs_S in H. destruct (exec n t e s) as [[e1 s1] o1] eqn:E1.
    destruct (IX _ _ _ _ _ _ _ _ _ _ Em Sg Os ND Ne Bo E1) as [QN QJ].
    assert (o1 <> Normal -> (e1, s1, o1) = (e', s', o) ->
      (o = Normal -> map fst (keep base e') = keep base stack /\ rel strict e s (keep base e') s' nil_r) /\ jumps bnds stack e s e' s' o) as NN.
    { intros X Y. injection Y as <- <- <-. split; [intros; contradiction|exact QJ]. }
    destruct o1; try (apply NN; [discriminate|exact H]).
    destruct (QN eq_refl) as [N1 R1].
    assert (LA := after_len st stack).
    destruct (IL l base (scope_after st stack) bnds e1 s1 e' s' o) as [KN KJ]; auto.
    { now apply after_nodup. } { lia. } { destruct bnds; cbn in *; auto. lia. }
    split.
    + intros Eo. destruct (KN Eo) as [A R]. rewrite after_keep in A by exact LB. split; [exact A|]. eapply rel_trans0; eauto.
    + destruct o; cbn in *; auto.
      * destruct bnds; auto. destruct KJ as [A R]. cbn in Bo. rewrite after_keep in A by exact Bo. split; [exact A|]. eapply rel_trans0; eauto.
      * destruct bnds; auto. destruct KJ as [A R]. cbn in Bo. rewrite after_keep in A by exact Bo. split; [exact A|]. eapply rel_trans0; eauto.
      * eapply rel_trans0; eauto.
      * eapply rel_trel; eauto. intros y. unfold nil_r. lia.
  - assert (C : emit_items (Then Break l) base stack bnds =
      match bnds with b :: _ => map TDrop (above b stack) | [] => [] end ++ TBreak :: emit_items l base stack bnds).
    { cbn [emit_items]. cbn [emit]. now rewrite <- app_assoc. }
    rewrite C in H. destruct bnds as [|b bnds].
    + cbn [app] in H. rewrite execs_S in H. destruct n; injection H as <- <- <-; (split; [discriminate|]); cbn; auto using trel_refl.
    + destruct (Pl_jump _ _ _ _ bnds _ _ _ _ _ _ (or_introl eq_refl) ND Ne Bo H) as [A B]. split; [intros; contradiction|exact B].
  - assert (C : emit_items (Then Continue l) base stack bnds =
      match bnds with b :: _ => map TDrop (above b stack) | [] => [] end ++ TContinue :: emit_items l base stack bnds).
    { cbn [emit_items]. cbn [emit]. now rewrite <- app_assoc. }
    rewrite C in H. destruct bnds as [|b bnds].
    + cbn [app] in H. rewrite execs_S in H. destruct n; injection H as <- <- <-; (split; [discriminate|]); cbn; auto using trel_refl.
    + destruct (Pl_jump _ _ _ _ bnds _ _ _ _ _ _ (or_intror eq_refl) ND Ne Bo H) as [A B]. split; [intros; contradiction|exact B].
  - assert (C : emit_items (Then (Return None) l) base stack bnds = map TDrop stack ++ TReturn :: emit_items l base stack bnds).
    { cbn [emit_items]. cbn [emit]. now rewrite <- app_assoc. }
    rewrite C in H. destruct (Pl_ret _ _ bnds _ _ _ _ _ _ ND Ne H) as [A B]. split; [intros; contradiction|exact B].
Qed.

Theorem all_ok n : Pe n /\ Pes n /\ Pc n /\ Px n /\ Pl n.
Proof.
  induction n as [|n (A & B & C & D & E)].
  - splits.
    + intros x e s e' s' r H. injection H as <- <- <-. apply trel_refl.
    + intros x e s e' s' r H. injection H as <- <- <-. apply trel_refl.
    + intros x vs s s' r H. injection H as <- <-. apply trel_refl.
    + intros st stack bnds t stack' e s e' s' o _ _ _ _ _ _ H. injection H as <- <- <-. split; [discriminate|apply trel_refl].
    + intros l base stack bnds e s e' s' o _ _ _ _ _ H. injection H as <- <- <-. split; [discriminate|apply trel_refl].
  - splits; auto using Pe_S, Pes_S, Pc_S, Px_S, Pl_S.
Qed.
End Main.
End Exec.
