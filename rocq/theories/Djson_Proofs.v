From Verif Require Import Common Json_Model Json_Spec Json_Proofs Json_Props Djson_Model Djson_Spec.

Scheme ty_ind2 := Induction for ty Sort Prop with fields_ind2 := Induction for fields Sort Prop.
Combined Scheme ty_fields_ind from ty_ind2, fields_ind2.

Lemma convert_id b s z : b = 32%Z \/ b = 64%Z ->
  ((if s : bool then - 2 ^ (b - 1) else 0) <= z < (if s then 2 ^ (b - 1) else 2 ^ b))%Z -> convert b s z = z.
Proof.
  intros B R. unfold convert.
  assert (P : (2 ^ b = 2 * 2 ^ (b - 1))%Z) by (destruct B; subst; reflexivity).
  assert (P0 : (0 < 2 ^ (b - 1))%Z) by (destruct B; subst; reflexivity).
  destruct s; cbn [andb].
  - destruct (Z.ltb_spec z 0).
    + rewrite <- (Z.mod_add z 1) by lia. rewrite Z.mod_small by lia.
      destruct (Z.leb_spec (2 ^ (b - 1)) (z + 1 * 2 ^ b)); lia.
    + rewrite Z.mod_small by lia. destruct (Z.leb_spec (2 ^ (b - 1)) z); lia.
  - now rewrite Z.mod_small by lia.
Qed.

Section P.
  Context {D : Type} (of_int : Z -> D) (to_int : D -> option Z) (zero : D).
  Hypothesis cast : forall z, (- 2 ^ 31 <= z < 2 ^ 31)%Z -> to_int (of_int z) = Some z.
  Notation to_json := (to_json of_int).
  Notation set_fields := (set_fields of_int).
  Notation field := (field to_int zero).
  Notation get_fields := (get_fields to_int zero).

  Lemma set_cons n t fs v l m : set_fields (FCons n t fs) (VCons v l) m = do j <- to_json t v; set_fields fs l (put n j m).
  Proof. reflexivity. Qed.
  Lemma to_struct fs l : to_json (TStruct fs) (VStruct l) = do m <- set_fields fs l []; Ok (JObj m).
  Proof. reflexivity. Qed.
  Lemma field_struct fs j : field (TStruct fs) (Some j) = do l <- get_fields fs j; Ok (VStruct l).
  Proof. reflexivity. Qed.
  Lemma get_cons n t fs j : get_fields (FCons n t fs) j = do v <- field t (get n j); do l <- get_fields fs j; Ok (VCons v l).
  Proof. reflexivity. Qed.
  Lemma lookup_put_same k (v : json D) m : lookup k (put k v m) = Some v.
  Proof.
    induction m as [|[k' v'] m IH]; cbn.
    - now rewrite beq_bytes_refl.
    - destruct (beq_bytes k' k) eqn:E; cbn; rewrite E; auto.
  Qed.
  Lemma lookup_put_other k k' (v : json D) m : k <> k' -> lookup k' (put k v m) = lookup k' m.
  Proof.
    intros N. induction m as [|[k2 v2] m IH]; cbn.
    - destruct (beq_bytes k k') eqn:E; [apply beq_bytes_true in E; contradiction|reflexivity].
    - destruct (beq_bytes k2 k) eqn:E; cbn.
      + apply beq_bytes_true in E. subst. destruct (beq_bytes k k') eqn:E; [apply beq_bytes_true in E; contradiction|reflexivity].
      + destruct (beq_bytes k2 k'); auto.
  Qed.
  Lemma strings_map l : strings (map (@JStr D) l) = l.
  Proof. induction l; cbn; congruence. Qed.

  (** Setting the fields keeps what is under other names, and puts each field's JSON under its own *)
  Inductive has_fields : fields -> vals D -> list (bytes * json D) -> Prop :=
  | hf_nil m : has_fields FNil VNil m
  | hf_cons n t fs v l m j : to_json t v = Ok j -> lookup n m = Some j -> has_fields fs l m ->
      has_fields (FCons n t fs) (VCons v l) m.

  Lemma set_other fs l m m' : set_fields fs l m = Ok m' -> forall k, ~ In k (names fs) -> lookup k m' = lookup k m.
  Proof.
    revert l m m'. induction fs as [|n t fs IH]; intros l m m' E k N; destruct l; try discriminate.
    - now inversion E.
    - rewrite set_cons in E. destruct (to_json t v) as [j| | |]; try discriminate. cbn [bind] in E. cbn in N.
      rewrite (IH _ _ _ E k) by tauto. apply lookup_put_other. tauto.
  Qed.
  Lemma set_fields_ok fs l m m' : NoDup (names fs) -> set_fields fs l m = Ok m' -> has_fields fs l m'.
  Proof.
    revert l m m'. induction fs as [|n t fs IH]; intros l m m' ND E; destruct l; try discriminate.
    - constructor.
    - rewrite set_cons in E. destruct (to_json t v) as [j| | |] eqn:J; try discriminate. cbn [bind] in E. cbn in ND. inversion ND; subst.
      econstructor; eauto. rewrite (set_other _ _ _ _ E) by auto. apply lookup_put_same.
  Qed.

  Lemma to_json_total :
    (forall t v, of_type t v -> exists j, to_json t v = Ok j)
    /\ (forall fs l m, of_types fs l -> exists m', set_fields fs l m = Ok m').
  Proof.
    apply (ty_fields_ind (fun t => forall v, of_type t v -> exists j, to_json t v = Ok j)
                         (fun fs => forall l m, of_types fs l -> exists m', set_fields fs l m = Ok m')).
    - intros b s v H. inversion H; subst. cbn. eauto.
    - intros v H. inversion H; subst. cbn. eauto.
    - intros v H. inversion H; subst. cbn. eauto.
    - intros v H. inversion H; subst. cbn. eauto.
    - intros v H. inversion H; subst. cbn. eauto.
    - intros fs IH v H. inversion H; subst. destruct (IH l []) as [m E]; auto. rewrite to_struct, E. cbn. eauto.
    - intros l m H. inversion H; subst. cbn. eauto.
    - intros n t IHt fs IHfs l m H. inversion H; subst. destruct (IHt v) as [j E]; auto. rewrite set_cons, E. cbn. auto.
  Qed.

  Lemma roundtrip :
    (forall t v j, well_formed t -> of_type t v -> int_sized v -> to_json t v = Ok j -> field t (Some j) = Ok v)
    /\ (forall fs l m, well_formed_all fs -> of_types fs l -> ints_sized l -> has_fields fs l m ->
        get_fields fs (JObj m) = Ok l).
  Proof.
    apply (ty_fields_ind
      (fun t => forall v j, well_formed t -> of_type t v -> int_sized v -> to_json t v = Ok j -> field t (Some j) = Ok v)
      (fun fs => forall l m, well_formed_all fs -> of_types fs l -> ints_sized l -> has_fields fs l m ->
        get_fields fs (JObj m) = Ok l)).
    - intros b s v j W H R E. inversion H; subst. cbn [Djson_Model.to_json] in E. inversion E; subst. cbn [Djson_Model.field].
      rewrite cast by auto. now rewrite convert_id.
    - intros v j W H R E. inversion H; subst. inversion E; subst. reflexivity.
    - intros v j W H R E. inversion H; subst. inversion E; subst. reflexivity.
    - intros v j W H R E. inversion H; subst. inversion E; subst. reflexivity.
    - intros v j W H R E. inversion H; subst. inversion E; subst. cbn. now rewrite strings_map.
    - intros fs IH v j [ND W] H R E. inversion H; subst. rewrite to_struct in E.
      destruct (set_fields fs l []) as [m| | |] eqn:M; try discriminate. cbn [bind] in E. inversion E; subst.
      rewrite field_struct, (IH l m); auto. eapply set_fields_ok; eauto.
    - intros l m W H R F. inversion H; subst. reflexivity.
    - intros n t IHt fs IHfs l m [W1 W2] H R F. inversion F; subst. inversion H; subst. destruct R as [R1 R2].
      rewrite get_cons. cbn [get]. match goal with L : lookup n m = _ |- _ => rewrite L end. rewrite (IHt v j) by auto. cbn [bind].
      rewrite (IHfs l0 m) by auto. reflexivity.
  Qed.

  (** What to_json produces is simple *)
  Variable number : D -> Prop.
  Context (fmt : D -> bytes) (strtod : bytes -> option (D * nat)).
  Hypothesis number_ok : forall d, number d -> survives fmt strtod d.
  Notation simple := (simple fmt strtod).
  Definition simple_members (m : list (bytes * json D)) : Prop :=
    Forall (fun p => plain_name (fst p) /\ simple (snd p)) m.
  Lemma simple_obj m : NoDup (map fst m) -> simple_members m -> simple (JObj m).
  Proof.
    intros ND H. cbn. split; [auto|]. clear ND. induction H as [|[k v] m [A B] H IH]; auto.
  Qed.
  Lemma simple_arr l : Forall plain_string l -> simple (JArr (map JStr l)).
  Proof. intros H. cbn. induction H; cbn; auto. Qed.
  Lemma put_keys k (v : json D) m : NoDup (map fst m) -> NoDup (map fst (put k v m)).
  Proof.
    assert (G : forall x, In x (map fst (put k v m)) -> x = k \/ In x (map fst m)).
    { induction m as [|[k' v'] m IH]; cbn; [intuition|]. intros x. destruct (beq_bytes k' k); cbn; intuition. destruct (IH x); auto. }
    induction m as [|[k' v'] m IH]; cbn; intros ND.
    - constructor; auto.
    - inversion ND; subst. destruct (beq_bytes k' k) eqn:E; cbn; [constructor; auto|].
      constructor; [|apply IH; auto].
      + intros I. assert (GG : forall x, In x (map fst (put k v m)) -> x = k \/ In x (map fst m)).
        { clear. induction m as [|[k' v'] m IH]; cbn; [intuition|]. intros x. destruct (beq_bytes k' k); cbn; intuition. destruct (IH x); auto. }
        destruct (GG _ I) as [->|J]; [now rewrite beq_bytes_refl in E|contradiction].
      + clear. intros x. induction m as [|[k2 v2] m IH]; cbn; [intuition|]. destruct (beq_bytes k2 k); cbn; intuition.
  Qed.
  Lemma put_simple k v m : plain_name k -> simple v -> simple_members m -> simple_members (put k v m).
  Proof.
    intros K V H. induction H as [|[k' v'] m [A B] H IH]; cbn.
    - constructor; [split; auto|constructor].
    - destruct (beq_bytes k' k); constructor; auto.
  Qed.
  Lemma to_json_simple :
    (forall t v j, plain_names t -> carried of_int number v -> to_json t v = Ok j -> simple j)
    /\ (forall fs l m m', plain_names_all fs -> all_carried of_int number l -> NoDup (map fst m) -> simple_members m ->
        set_fields fs l m = Ok m' -> NoDup (map fst m') /\ simple_members m').
  Proof.
    apply (ty_fields_ind
      (fun t => forall v j, plain_names t -> carried of_int number v -> to_json t v = Ok j -> simple j)
      (fun fs => forall l m m', plain_names_all fs -> all_carried of_int number l -> NoDup (map fst m) -> simple_members m ->
        set_fields fs l m = Ok m' -> NoDup (map fst m') /\ simple_members m')).
    - intros b s v j W C E. destruct v; inversion E; subst. apply number_ok, C.
    - intros v j W C E. destruct v; inversion E; subst. apply number_ok, C.
    - intros v j W C E. destruct v; inversion E; subst. exact Logic.I.
    - intros v j W C E. destruct v; inversion E; subst. exact C.
    - intros v j W C E. destruct v; inversion E; subst. now apply simple_arr.
    - intros fs IH v j W C E. destruct v; try discriminate. rewrite to_struct in E.
      destruct (set_fields fs l []) as [m| | |] eqn:M; try discriminate. inversion E; subst.
      destruct (IH l [] m) as [A B]; auto; [constructor|constructor|]. now apply simple_obj.
    - intros l m m' W C ND S E. destruct l; inversion E; subst. auto.
    - intros n t IHt fs IHfs l m m' (W1 & W2 & W3) C ND S E. destruct l; try discriminate. rewrite set_cons in E.
      destruct (to_json t v) as [j| | |] eqn:J; try discriminate. cbn [bind] in E. destruct C as [C1 C2].
      eapply IHfs in E; eauto; [now apply put_keys|apply put_simple; eauto].
  Qed.
End P.

(** The text *)
Fixpoint total (l : list (nat * bytes)) : bytes := match l with [] => [] | (_, p) :: l => p ++ total l end.
Lemma pieces_ok l body : Forall (fun q => length (snd q) < fst q) l ->
  (Z.of_nat (length body) < 8192)%Z ->
  pieces_cat l body = (if (Z.of_nat (length body + length (total l)) <? 8192)%Z then Ok (body ++ total l) else UB).
Proof.
  intros F. revert body. induction F as [|[cap p] l A F IH]; intros body L; cbn [pieces_cat total].
  - rewrite app_nil_r. cbn [length]. destruct (Z.ltb_spec (Z.of_nat (length body + 0)) 8192); [reflexivity|lia].
  - cbn in A. rewrite (proj2 (Nat.ltb_lt _ _) A). rewrite app_length.
    destruct (Z.ltb_spec (Z.of_nat (length body + length p)) 8192).
    + rewrite IH by (rewrite app_length; lia). rewrite app_length, <- app_assoc.
      replace (length body + length p + length (total l)) with (length body + (length p + length (total l))) by lia. reflexivity.
    + destruct (Z.ltb_spec (Z.of_nat (length body + (length p + length (total l)))) 8192); [lia|reflexivity].
Qed.
Lemma pieces_ub l body : Exists (fun q => fst q <= length (snd q)) l -> pieces_cat l body = UB.
Proof.
  intros E. revert body. induction E as [[cap p] l A|[cap p] l E IH]; intros body; cbn [pieces_cat].
  - cbn in A. now rewrite (proj2 (Nat.ltb_ge _ _) A).
  - destruct (length p <? cap); [|reflexivity]. destruct (_ <? _)%Z; auto.
Qed.

Lemma total_app l1 l2 : total (l1 ++ l2) = total l1 ++ total l2.
Proof. induction l1 as [|[? ?] l1 IH]; cbn [total app]; auto. now rewrite IH, app_assoc. Qed.
Lemma total_inits f fs : total (inits (f :: fs) true) = join (bs ", ") (map (fun f => init_text (fst f) (snd f)) (f :: fs)).
Proof.
  assert (E : forall b, total (inits (f :: fs) b) = (if b then [] else bs ", ") ++ join (bs ", ") (map (fun f => init_text (fst f) (snd f)) (f :: fs))).
  2: apply (E true).
  assert (C : forall n k l b, inits ((n, k) :: l) b = (if b then [] else [(3, bs ", ")]) ++ (128, init_text n k) :: inits l false)
    by reflexivity.
  revert f. induction fs as [|g fs IH]; intros [n k] b; rewrite C, total_app; cbn [total].
  - cbn [inits total map join fst snd]. rewrite app_nil_r. destruct b; reflexivity.
  - rewrite IH. cbn [map join fst snd]. destruct b; reflexivity.
Qed.
Lemma total_body name fs :
  total (map (fun f => (2048, assign_text (fst f) (snd f))) fs
         ++ [free (bs "return Result<"); free name; free (bs ">::Ok("); free name; free (bs " { ")]
         ++ inits fs true ++ [free (bs " }); ")]) = method_text name fs.
Proof.
  unfold method_text. rewrite !total_app.
  assert (C : forall a a' b b' c c' d : bytes, a = a' -> b = b' -> c = c' -> a ++ b ++ c ++ d = a' ++ b' ++ c' ++ d) by congruence.
  change (total [free (bs " }); ")]) with (bs " }); "). apply C.
  - induction fs as [|f fs IH]; [reflexivity|]. cbn [map total concat fst snd]. now rewrite IH.
  - cbn [total free]. now rewrite app_nil_r.
  - destruct fs; [reflexivity|apply total_inits].
Qed.
Lemma inits_small fs b : Forall (fun f => length (init_text (fst f) (snd f)) < 128) fs ->
  Forall (fun q => length (snd q) < fst q) (inits fs b).
Proof.
  intros F. revert b. induction F as [|[n k] fs A F IH]; intros b; cbn [inits]; [constructor|].
  apply Forall_app. split.
  - destruct b; repeat constructor.
  - constructor; auto.
Qed.
Lemma free_small p : length (snd (free p)) < fst (free p).
Proof. cbn [free fst snd]. apply Nat.lt_succ_diag_r. Qed.
Lemma from_body_ok name fs :
  Forall (fun f => length (assign_text (fst f) (snd f)) < 2048 /\ length (init_text (fst f) (snd f)) < 128) fs ->
  from_body name fs = if (Z.of_nat (length (method_text name fs)) <? 8192)%Z then Ok (method_text name fs) else UB.
Proof.
  intros F. unfold from_body. rewrite pieces_ok.
  - rewrite total_body. reflexivity.
  - apply Forall_app. split; [|apply Forall_app; split; [|apply Forall_app; split]].
    + apply Forall_map. eapply Forall_impl; [|exact F]. intros f [A _]. exact A.
    + repeat (apply Forall_cons; [apply free_small|]). apply Forall_nil.
    + apply inits_small. eapply Forall_impl; [|exact F]. intros f [_ B]. exact B.
    + apply Forall_cons; [apply free_small|apply Forall_nil].
  - cbn [length]. lia.
Qed.
Lemma from_body_ub name fs :
  Exists (fun f => 2048 <= length (assign_text (fst f) (snd f)) \/ 128 <= length (init_text (fst f) (snd f))) fs ->
  from_body name fs = UB.
Proof.
  intros E. unfold from_body. apply pieces_ub. apply Exists_exists in E as (f & I & [A|A]); apply Exists_exists.
  - exists (2048, assign_text (fst f) (snd f)). split; [|exact A]. apply in_or_app. left. apply in_map_iff. eauto.
  - exists (128, init_text (fst f) (snd f)). split; [|exact A]. apply in_or_app. right. apply in_or_app. right. apply in_or_app. left.
    clear A. generalize true. induction fs as [|[n k] fs IH]; intros b; [destruct I|]. cbn [inits].
    apply in_or_app. right. destruct I as [<-|I]; [now left|right; auto].
Qed.
