(** C46: the names of generic instances. *)
From Verif Require Import Common Mangle_Model Mangle_Spec Mangle_Proofs.
Local Open Scope nat_scope.

(** Whatever the type argument, its mangled form consists of identifier characters only,
    and it fits, with its terminator, in the buffer allocated for it. *)
Theorem C46_identifier s : identifier (sanitize s).
Proof. apply sanitize_ident. Qed.
Theorem C46_fits s : length (sanitize s) + 1 <= sanitize_capacity s.
Proof.
  unfold sanitize, sanitize_capacity. destruct (is_prefix (bs "struct ") s).
  - pose proof (flat_len (skipn 7 s)). rewrite skipn_length in H. lia.
  - pose proof (flat_len s). lia.
Qed.
(** A mangled instance name is an identifier if the template's name is. *)
Theorem C46_instance_identifier tpl args m : identifier tpl -> mangled tpl args = Ok m -> identifier m.
Proof.
  intros I E. apply mangled_ok in E. destruct E as [-> _]. apply Forall_app. split; [exact I|].
  induction args as [|a args IH]; cbn [flat_map]; [constructor|]. constructor; [unfold letter; lia|]. apply Forall_app. split; [apply sanitize_ident|exact IH].
Qed.

(** Names, and pointers of any depth to them, get different mangled forms if no name ends in
    "Ptr".  Missing from the full claim: all other type arguments, see the refutations. *)
Theorem C46_injective_partial s s' : simple s -> simple s' -> sanitize s = sanitize s' -> s = s'.
Proof. apply sanitize_simple_inj. Qed.
(** After any sequence of instantiations of one-argument templates with such arguments, each
    of them refers to the instance made for its own template and argument, when no two
    templates in use are such that one's name is the other's followed by an underscore and
    more. *)
Theorem C46_instances_partial l insts tpl arg :
  (forall t a, In (t, a) l -> exists x, a = [x] /\ simple x) ->
  (forall t a t' a', In (t, a) l -> In (t', a') l -> ~ exists r, t' = t ++ 95%N :: r) ->
  instantiate_all [] l = Ok insts -> In (tpl, [arg]) l ->
  exists i, resolve insts tpl [arg] = Ok (Some i) /\ i_tpl i = tpl /\ i_args i = [arg].
Proof.
  intros S P E I. destruct (all_keeps l [] insts E) as (C & _ & O & F); [intros i []|].
  destruct (F _ _ I) as (m & i & M & Ii & Ni). unfold resolve. rewrite M. cbn [bind].
  destruct (find (fun i => beq_bytes (i_name i) m) insts) as [j|] eqn:Fj.
  2: { exfalso. apply (find_none _ _ Fj) in Ii. cbn in Ii. rewrite Ni, beq_bytes_refl in Ii. discriminate. }
  apply find_some in Fj. destruct Fj as [Jj Ej]. apply beq_bytes_true in Ej. exists j. split; [reflexivity|].
  pose proof (C j Jj) as Cj. rewrite Ej in Cj. destruct (O j Jj) as [[]|Lj].
  destruct (S _ _ Lj) as (x & Ax & Sx). destruct (S _ _ I) as (y & Ay & Sy). injection Ay as <-. rewrite Ax in *.
  apply mangled_ok in M. apply mangled_ok in Cj. destruct M as [M _]. destruct Cj as [Cj _]. rewrite M in Cj.
  cbn [flat_map] in Cj. rewrite !app_nil_r in Cj.
  assert (G : forall (t t' : bytes) r r', t ++ 95%N :: r = t' ++ 95%N :: r' ->
    (t = t' /\ r = r') \/ (exists q, t' = t ++ 95%N :: q) \/ (exists q, t = t' ++ 95%N :: q)).
  { clear. induction t as [|c t IH]; intros [|c' t'] r r' X; cbn in X.
    - injection X as ->. now left.
    - injection X as <- X. right. left. now exists t'.
    - injection X as -> X. right. right. now exists t.
    - injection X as <- X. destruct (IH _ _ _ X) as [[-> ->]|[[q ->]|[q ->]]]; [now left|right; left; now exists q|right; right; now exists q]. }
  destruct (G _ _ _ _ Cj) as [[T A]|[X|X]].
  - split; [congruence|]. f_equal. symmetry. now apply sanitize_simple_inj.
  - exfalso. eapply (P _ _ _ _ I Lj); eauto.
  - exfalso. eapply (P _ _ _ _ Lj I); eauto.
Qed.

(** [Foo*] and a type called [FooPtr] get the same name, so the second instance is never
    made and its uses refer to the first. *)
Theorem C46_collision_refuted (tpl foo : bytes) insts :
  identifier foo -> instantiate_all [] [(tpl, [foo ++ bs "Ptr"]); (tpl, [foo ++ bs "*"])] = Ok insts ->
  exists i, insts = [i] /\ resolve insts tpl [foo ++ bs "*"] = Ok (Some i) /\ i_args i = [foo ++ bs "Ptr"].
Proof.
  intros F E.
  assert (S : sanitize (foo ++ bs "*") = sanitize (foo ++ bs "Ptr")).
  { change (foo ++ bs "*") with (pointers foo 1). rewrite sanitize_pointers by assumption.
    assert (F' : identifier (foo ++ bs "Ptr")) by (apply Forall_app; split; [exact F|repeat constructor; unfold letter; cbn; lia]).
    pose proof (sanitize_pointers (foo ++ bs "Ptr") 0 F') as H. unfold pointers in H. cbn [repeat ptrs] in H.
    rewrite !app_nil_r in H. rewrite H. reflexivity. }
  assert (M : mangled tpl [foo ++ bs "*"] = mangled tpl [foo ++ bs "Ptr"]) by (unfold mangled; cbn [flat_map]; now rewrite S).
  cbn [instantiate_all] in E. unfold instantiate in E. unfold resolve. rewrite M in *.
  destruct (mangled tpl [foo ++ bs "Ptr"]) as [m| | |]; try discriminate. cbn [bind existsb] in E.
  cbn [i_name orb] in E. rewrite beq_bytes_refl in E. cbn [orb bind] in E. injection E as <-.
  eexists. split; [reflexivity|]. cbn [bind find i_name]. rewrite beq_bytes_refl. auto.
Qed.
(** Two templates can clash too: Map with the argument K_V, and Map_K with the argument V. *)
Theorem C46_template_collision_refuted (a b c : bytes) : identifier b -> identifier c ->
  mangled (a ++ 95%N :: b) [c] = mangled a [b ++ 95%N :: c].
Proof.
  intros B C. unfold mangled. cbn [flat_map].
  assert (BC : identifier (b ++ 95%N :: c)) by (apply Forall_app; split; [exact B|constructor; [unfold letter; lia|exact C]]).
  pose proof (sanitize_pointers c 0 C) as H1. pose proof (sanitize_pointers (b ++ 95%N :: c) 0 BC) as H2.
  unfold pointers in *. cbn [repeat ptrs] in *. rewrite !app_nil_r in *. rewrite H1, H2, <- app_assoc. reflexivity.
Qed.
(** A template name and a type name that are long enough together overrun the buffer for the
    instance's name. *)
Theorem C46_overflow_refuted tpl arg : identifier arg -> 256 <= length tpl + 1 + length arg -> mangled tpl [arg] = UB.
Proof.
  intros I L. unfold mangled. pose proof (sanitize_pointers arg 0 I) as H. unfold pointers in H. cbn [repeat ptrs] in H.
  rewrite !app_nil_r in H. cbn [flat_map]. rewrite H, app_nil_r.
  destruct (Nat.ltb_spec (length (tpl ++ 95%N :: arg)) 256) as [X|X]; [|reflexivity].
  rewrite app_length in X. cbn [length] in X. lia.
Qed.

Example C46_ex_simple : simple (bs "Node**") /\ simple (bs "uint8_t") /\ sanitize (bs "Node**") = bs "NodePtrPtr".
Proof.
  assert (NP : forall (n : bytes), is_prefix (rev (bs "Ptr")) (rev n) = false -> ~ exists p, n = p ++ bs "Ptr").
  { intros n H [p ->]. rewrite rev_app_distr in H.
    rewrite (proj2 (is_prefix_spec _ _)) in H; [discriminate|now eexists]. }
  split; [|split; [|reflexivity]].
  - exists (bs "Node"), 2. split; [reflexivity|]. split; [repeat constructor; unfold letter; cbn; lia|now apply NP].
  - exists (bs "uint8_t"), 0. split; [reflexivity|]. split; [repeat constructor; unfold letter; cbn; lia|now apply NP].
Qed.
Example C46_ex : exists insts, instantiate_all [] [(bs "Vec", [bs "int"]); (bs "Box", [bs "int*"]); (bs "Vec", [bs "int*"]); (bs "Vec", [bs "int"])] = Ok insts /\
  map i_name insts = [bs "Vec_intPtr"; bs "Box_intPtr"; bs "Vec_int"].
Proof. eexists. split; [vm_compute; reflexivity|reflexivity]. Qed.

Print Assumptions C46_identifier.
Print Assumptions C46_fits.
Print Assumptions C46_instance_identifier.
Print Assumptions C46_injective_partial.
Print Assumptions C46_instances_partial.
Print Assumptions C46_collision_refuted.
Print Assumptions C46_template_collision_refuted.
Print Assumptions C46_overflow_refuted.
