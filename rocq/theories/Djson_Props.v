(** C79: a value of a type with derived to_json and from_json survives the trip. *)
From Verif Require Import Common Json_Model Json_Spec Json_Proofs Json_Props Djson_Model Djson_Spec Djson_Proofs.

Section Props.
  Context {D : Type} (of_int : Z -> D) (to_int : D -> option Z) (zero : D).
  Context (fmt : D -> bytes) (strtod : bytes -> option (D * nat)).
  (** Ints are doubles *)
  Hypothesis cast : forall z, (- 2 ^ 31 <= z < 2 ^ 31)%Z -> to_int (of_int z) = Some z.

  (** PARTIAL: for every struct type, however nested, and every value of it whose integers fit
      an int, to_json works and from_json gives the value back ... *)
  Theorem C79_roundtrip_partial : forall fs v,
    well_formed (TStruct fs) -> of_type (TStruct fs) v -> int_sized v ->
    exists j, to_json of_int (TStruct fs) v = Ok j /\ from_json to_int zero fs j = Ok v.
  Proof.
    intros fs v W T R. destruct (proj1 (to_json_total of_int) _ _ T) as [j E]. exists j. split; [auto|].
    exact (proj1 (roundtrip of_int to_int zero cast) _ _ _ W T R E).
  Qed.

  (** ... also through the text that stringify writes and parse reads, within the limits of
      those (C19). *)
  Theorem C79_text_partial : forall fs v,
    well_formed (TStruct fs) -> plain_names (TStruct fs) -> of_type (TStruct fs) v -> int_sized v ->
    carried of_int (survives fmt strtod) v ->
    exists j, to_json of_int (TStruct fs) v = Ok j
    /\ json_parse strtod (stringify fmt j) = Ok (Some j)
    /\ from_json to_int zero fs j = Ok v.
  Proof.
    intros fs v W P T R C. destruct (C79_roundtrip_partial fs v W T R) as (j & E & F). exists j. splits; auto.
    rewrite <- (app_nil_r (stringify fmt j)). apply C19_roundtrip_partial; [|exact Logic.I].
    exact (proj1 (to_json_simple of_int (survives fmt strtod) fmt strtod (fun _ H => H)) _ _ _ P C E).
  Qed.

  (** REFUTED beyond an int: an integer field whose double does not fit an int makes from_json
      undefined, whatever the other fields are; so for every value above 2^31 of i64, u32,
      u64 and usize fields. *)
  Theorem C79_wide_refuted : forall n b s z,
    to_int (of_int z) = None ->
    exists j, to_json of_int (TStruct (FCons n (TInt b s) FNil)) (VStruct (VCons (VInt z) VNil)) = Ok j
    /\ from_json to_int zero (FCons n (TInt b s) FNil) j = UB.
  Proof.
    intros n b s z E. eexists. split; [reflexivity|]. unfold from_json. cbn. rewrite beq_bytes_refl. cbn. now rewrite E.
  Qed.

  (** REFUTED: from_json reports no error.  Given JSON that has none of the fields (null, a
      list, another object) it succeeds with zeros and leaves nested structs unassigned. *)
  Fixpoint blank (fs : fields) : vals D :=
    match fs with
    | FNil => VNil
    | FCons _ t fs =>
      VCons (match t with
             | TInt _ _ => VInt 0 | TDouble => VDouble zero | TBool => VBool false | TStr => VStr []
             | TVec => VVec [] | TStruct _ => VIndet
             end) (blank fs)
    end.
  Theorem C79_missing_refuted : forall fs j,
    (forall n, In n (names fs) -> get n j = None) -> from_json to_int zero fs j = Ok (VStruct (blank fs)).
  Proof.
    intros fs j H. unfold from_json. enough (E : get_fields to_int zero fs j = Ok (blank fs)) by now rewrite E.
    induction fs as [|n t fs IH]; [reflexivity|]. rewrite get_cons, (H n) by (now left).
    cbn [names] in H. rewrite IH by (intros; apply H; now right).
    destruct t; reflexivity.
  Qed.
End Props.

(** PARTIAL: the compiler's text of from_json is complete, with every field assigned and
    initialized, when each piece fits its array and the whole 8192 bytes; REFUTED otherwise:
    the compiler writes past an array. *)
Definition fits (f : bytes * kind) : Prop :=
  length (assign_text (fst f) (snd f)) < 2048 /\ length (init_text (fst f) (snd f)) < 128.
Theorem C79_method_partial : forall name fs,
  Forall fits fs -> (Z.of_nat (length (method_text name fs)) < 8192)%Z -> from_body name fs = Ok (method_text name fs).
Proof.
  intros name fs F L. rewrite from_body_ok by exact F. now rewrite (proj2 (Z.ltb_lt _ _) L).
Qed.
Theorem C79_method_refuted : forall name fs,
  Exists (fun f => ~ fits f) fs \/ (8192 <= Z.of_nat (length (method_text name fs)))%Z -> from_body name fs = UB.
Proof.
  intros name fs H.
  assert (D : Forall fits fs \/ Exists (fun f => ~ fits f) fs).
  { clear H. induction fs as [|f fs IH]; [left; constructor|].
    destruct (Nat.lt_ge_cases (length (assign_text (fst f) (snd f))) 2048) as [A|A];
      [|right; left; unfold fits; lia].
    destruct (Nat.lt_ge_cases (length (init_text (fst f) (snd f))) 128) as [B|B]; [|right; left; unfold fits; lia].
    destruct IH as [IH|IH]; [left; constructor; [split; auto|auto]|right; now right]. }
  destruct D as [D|D].
  - destruct H as [H|H].
    + exfalso. apply Exists_exists in H as (f & I & N). apply N. revert I. now apply Forall_forall.
    + rewrite from_body_ok by exact D. destruct (Z.ltb_spec (Z.of_nat (length (method_text name fs))) 8192); [lia|reflexivity].
  - apply from_body_ub. eapply Exists_impl; [|exact D]. unfold fits. intros f N.
    destruct (Nat.lt_ge_cases (length (assign_text (fst f) (snd f))) 2048); [|now left]. right. lia.
Qed.
(** Twelve Vec<String> fields; a name of 62 letters *)
Example C79_method_case :
  from_body (bs "P") [(bs "x", KInt); (bs "q", KNested (bs "Q"))] =
    Ok (bs "let _f_x = (*j).get_int(""x"").unwrap_or(0);" ++ [10%N] ++ bs "let _opt_q = (*j).get(""q"");" ++ [10%N]
        ++ bs "let _f_q: Q;" ++ [10%N] ++ bs "if _opt_q.is_some() { _f_q = Q::from_json(_opt_q.unwrap()).unwrap(); }" ++ [10%N]
        ++ bs "return Result<P>::Ok(P { x: _f_x, q: _f_q }); ")
  /\ (8192 <= Z.of_nat (length (method_text (bs "Config") (repeat (bs "entries", KVec) 14))))%Z
  /\ ~ fits (repeat 97%N 62, KInt).
Proof.
  splits; [vm_compute; reflexivity|apply Z.leb_le; vm_compute; reflexivity|].
  intros [_ H]. apply Nat.ltb_lt in H. vm_compute in H. discriminate.
Qed.

(** A struct with a nested one, all in range *)
Definition sample_fs := FCons (bs "id") (TInt 64 true) (FCons (bs "name") TStr (FCons (bs "tags") TVec
  (FCons (bs "in") (TStruct (FCons (bs "on") TBool (FCons (bs "id") (TInt 32 false) FNil))) FNil))).
Definition sample : val Z := VStruct (VCons (VInt 7) (VCons (VStr (bs "a b")) (VCons (VVec [bs "x"; bs "y"])
  (VCons (VStruct (VCons (VBool true) (VCons (VInt 9) VNil))) VNil)))).
Definition toy_to_int (z : Z) : option Z := if ((- 2 ^ 31 <=? z) && (z <? 2 ^ 31))%Z then Some z else None.
Example C79_roundtrip_case :
  well_formed (TStruct sample_fs) /\ of_type (TStruct sample_fs) sample /\ int_sized sample
  /\ (do j <- to_json (fun z => z) (TStruct sample_fs) sample; from_json toy_to_int 0%Z sample_fs j) = Ok sample
  /\ toy_to_int (2 ^ 31) = None.
Proof.
  assert (ND : forall l : list bytes, (fix nd l := match l with [] => true | x :: l => negb (existsb (beq_bytes x) l) && nd l end) l = true -> NoDup l).
  { induction l as [|x l IH]; intros H; [constructor|]. apply andb_prop in H as [A B]. constructor; [|auto].
    intros I. rewrite (proj2 (existsb_exists _ _)) in A; [discriminate|]. exists x. split; [auto|apply beq_bytes_refl]. }
  splits.
  - cbn -[bs]. splits; auto; apply ND; vm_compute; reflexivity.
  - repeat constructor; cbn; try lia.
  - cbn. lia.
  - vm_compute. reflexivity.
  - vm_compute. reflexivity.
Qed.
Definition toy_fmt_z (z : Z) : bytes := [(48 + Z.to_N z)%N].
Definition toy_strtod_z (l : bytes) : option (Z * nat) := match toy_strtod l with Some (d, n) => Some (Z.of_N d, n) | None => None end.
Lemma toy_survives z : (0 <= z < 10)%Z -> survives toy_fmt_z toy_strtod_z z.
Proof.
  intros H. assert (C : (z = 0 \/ z = 1 \/ z = 2 \/ z = 3 \/ z = 4 \/ z = 5 \/ z = 6 \/ z = 7 \/ z = 8 \/ z = 9)%Z) by lia.
  split.
  - exists (48 + Z.to_N z)%N, []. split; [reflexivity|]. right. intuition; subst; reflexivity.
  - intros [|c rest] Hd; [intuition; subst; reflexivity|]. cbn in Hd.
    assert (E : is_digit c = false) by (intuition; subst; reflexivity).
    intuition; subst z; unfold toy_strtod_z, toy_strtod, toy_fmt_z; cbn [app dec_digits]; rewrite E; reflexivity.
Qed.
Example C79_text_case :
  plain_names (TStruct sample_fs) /\ carried (fun z => z) (survives toy_fmt_z toy_strtod_z) sample
  /\ (do j <- to_json (fun z => z) (TStruct sample_fs) sample;
      do o <- json_parse toy_strtod_z (stringify toy_fmt_z j);
      match o with Some j => from_json toy_to_int 0%Z sample_fs j | None => UB end) = Ok sample.
Proof.
  splits.
  - cbn -[In]. unfold plain_name. splits; try (intros H; cbn in H; intuition discriminate); try (cbn; lia); exact Logic.I.
  - cbn -[In survives]. splits; try (apply toy_survives; lia); try exact Logic.I.
    + unfold plain_string. splits; try (intros H; cbn in H; intuition discriminate). cbn; lia.
    + repeat constructor; try (intros H; cbn in H; intuition discriminate); cbn; lia.
  - vm_compute. reflexivity.
Qed.
Example C79_missing_case :
  from_json toy_to_int 0%Z sample_fs (JArr [JNum 4%Z]) = Ok (VStruct (VCons (VInt 0) (VCons (VStr []) (VCons (VVec []) (VCons VIndet VNil))))).
Proof. reflexivity. Qed.

Print Assumptions C79_roundtrip_partial.
Print Assumptions C79_text_partial.
Print Assumptions C79_wide_refuted.
Print Assumptions C79_missing_refuted.
Print Assumptions C79_method_partial.
Print Assumptions C79_method_refuted.
