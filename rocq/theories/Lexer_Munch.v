(** The operator table: maximal munch. *)
From Verif Require Import Common Lexer_Model Lexer_Spec Lexer_Proofs.
Local Open Scope N_scope.

(** ** Operators *)
Ltac nbs := repeat match goal with
  | |- context [bs ?s] => let v := eval vm_compute in (bs s) in change (bs s) with v
  | H : context [bs ?s] |- _ => let v := eval vm_compute in (bs s) in change (bs s) with v in H
  end.
Ltac ops := let v := eval vm_compute in operators in change operators with v in *.

Section Munch.
Local Arguments N.eqb !_ !_.

Definition munch (s : bytes) (ty : tokty) (len : nat) : Prop :=
  match find (fun e => is_prefix (fst e) s && Nat.eqb (length (fst e)) len) operators with
  | Some (o, ty') => ty' = ty
  | None => len = 1%nat /\ ty = TOK_OP
  end /\ forallb (fun e => implb (is_prefix (fst e) s) (Nat.leb (length (fst e)) len)) operators = true.

Ltac munch_chars :=
  repeat (cbn;
    match goal with
    | |- context [?k =? ?c] => is_var c; destruct (N.eqb_spec k c); [subst c|]
    end); cbn; auto.

Lemma operator_munch s : s <> [] -> munch s (fst (operator s)) (snd (operator s)).
Proof.
  intros Hs. destruct s as [|c t]; [easy|].
  destruct (in_dec N.eq_dec c (bs "?|:.-=<>&+!*/%^(){}[],;@~")) as [I|NI].
  - nbs. cbn [In] in I.
    repeat (destruct I as [<-|I]; [clear Hs; unfold munch, operator; ops; nbs;
      destruct t as [|c1 t]; [cbn; auto|]; destruct t as [|c2 t]; munch_chars|]).
    easy.
  - unfold munch, operator.
    assert (X : forall k r, In k (bs "?|:.-=<>&+!*/%^(){}[],;@~") -> is_prefix (k :: r) (c :: t) = false).
    { intros k r Ik. cbn. destruct (N.eqb_spec k c) as [->|]; auto. easy. }
    assert (Y : forallb (fun e => negb (is_prefix (fst e) (c :: t))) operators = true).
    { apply forallb_forall. intros [o ty] Io. cbn [fst]. apply negb_true_iff.
      ops. nbs. cbn [In] in Io.
      repeat (destruct Io as [Io|Io]; [injection Io as <- _; apply X; cbn [In]; tauto|]). easy. }
    assert (Z : forall o, In o (map fst operators) -> is_prefix o (c :: t) = false).
    { intros o Io. apply in_map_iff in Io. destruct Io as ([o' ty] & <- & Io).
      rewrite forallb_forall in Y. apply Y in Io. now apply negb_true_iff in Io. }
    rewrite !Z by (cbn; tauto). cbn [orb].
    replace (existsb (fun c0 => is_prefix [c0] (c :: t)) (bs "=!<>+-*/%|&^")) with false.
    2:{ symmetry. apply not_true_iff_false. intros E. apply existsb_exists in E. destruct E as (k & Ik & E).
        rewrite X in E; [discriminate|]. nbs. cbn [In] in Ik |- *. tauto. }
    rewrite andb_false_r.
    assert (E : (fst (match c :: t with
       | c :: _ =>
       if c =? 40 then TOK_LPAREN
       else if c =? 41 then TOK_RPAREN
       else if c =? 123 then TOK_LBRACE
       else if c =? 125 then TOK_RBRACE
       else if c =? 91 then TOK_LBRACKET
       else if c =? 93 then TOK_RBRACKET
       else if c =? 60 then TOK_LANGLE
       else if c =? 62 then TOK_RANGLE
       else if c =? 44 then TOK_COMMA
       else if c =? 58 then TOK_COLON
       else if c =? 59 then TOK_SEMICOLON
       else if c =? 64 then TOK_AT
       else TOK_OP
     | [] => TOK_OP
     end, 1%nat)) = TOK_OP).
    { cbn [fst]. repeat (match goal with |- context [c =? ?k] => destruct (N.eqb_spec c k) as [->|]; [exfalso; apply NI; nbs; cbn [In]; tauto|] end).
      reflexivity. }
    rewrite E. cbn [snd]. split.
    + replace (find _ operators) with (@None (bytes * tokty)); auto.
      symmetry. destruct (find _ operators) eqn:F; auto. apply find_some in F. destruct F as [F1 F2].
      apply andb_true_iff in F2. rewrite Z in F2; [easy|]. now apply in_map.
    + apply forallb_forall. intros e Ie. rewrite Z; auto. now apply in_map.
Qed.
End Munch.

