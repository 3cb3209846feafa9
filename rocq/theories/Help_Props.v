From Verif Require Import Common Compl_Model Compl_Spec Compl_Proofs Help_Model Help_Spec Help_Proofs.
Local Open Scope nat_scope.

Lemma find_name funcs f : NoDup (map s_name funcs) -> In f funcs -> find (fun g => beq_bytes (s_name g) (s_name f)) funcs = Some f.
Proof.
  induction funcs as [|g l IH]; intros Nd I; [destruct I|]. cbn [map] in Nd. inversion Nd as [|? ? Na Nl]; subst. cbn [find]. destruct I as [->|I]; [now rewrite beq_bytes_refl|].
  destruct (beq_bytes_spec (s_name g) (s_name f)) as [E|_]; [|auto]. destruct Na. rewrite E. now apply in_map.
Qed.
(** C124: inside the parentheses of a call, behind arguments without parentheses, the editor is shown the name of the
    function, the types of its parameters in order and the type it returns *)
Theorem C124_help_partial : forall funcs src line col above left f args ret,
  at_position src line col above left -> in_call (above ++ left) (s_name f) -> NoDup (map s_name funcs) -> In f funcs -> known f args ret ->
  exists s, signature (s_name f) args ret s /\ help funcs src line col = Ok (Some s).
Proof.
  intros funcs src line col above left f args ret P C Nd I K. destruct (commas_ex args) as [ps Cm]. eexists. split; [exists ps; split; [exact Cm|reflexivity]|].
  unfold help. rewrite (before_ok _ _ _ _ _ P). cbv zeta. rewrite (scan_ok _ _ C). assert (Ne : s_name f <> []) by (destruct C as (? & ? & ? & _ & Ne & _); exact Ne).
  destruct (Nat.ltb_spec 0 (length (s_name f))) as [_|H]; [|destruct (s_name f); [easy|cbn in H; lia]]. destruct (Nat.ltb_spec (length (s_name f)) 255) as [_|H]; [|destruct K as (_ & _ & K & _); unfold bytes in *; lia].
  cbn [andb]. rewrite find_name by assumption. rewrite (label_ok f args ret _ K (ex_intro _ ps (conj Cm eq_refl))). reflexivity.
Qed.
(** C124: nothing else is shown: a signature is that of a function of the program, and the position is inside its parentheses *)
Theorem C124_only : forall funcs src line col above left s,
  at_position src line col above left -> help funcs src line col = Ok (Some s) ->
  exists f, In f funcs /\ in_call (above ++ left) (s_name f) /\
    (forall args ret, known f args ret -> signature (s_name f) args ret s).
Proof.
  intros funcs src line col above left s P H. unfold help in H. rewrite (before_ok _ _ _ _ _ P) in H. cbv zeta in H.
  destruct (0 <? length (scan (rev (above ++ left)))) eqn:L0; [|discriminate]. destruct (length (scan (rev (above ++ left))) <? 255); [|discriminate]. cbn [andb] in H.
  destruct (find _ funcs) as [f|] eqn:F; [|discriminate]. apply find_some in F as [I E]. apply beq_bytes_true in E. destruct (label_of f) as [l| | |] eqn:Lb; try discriminate. injection H as <-.
  exists f. split; [exact I|]. split.
  - rewrite E. rewrite <- (rev_involutive (above ++ left)). apply scan_only; [now rewrite rev_involutive|]. intros X. rewrite rev_involutive in X. unfold bytes in *. rewrite X in L0. discriminate.
  - intros args ret K. destruct (commas_ex args) as [ps Cm]. assert (S1 : signature (s_name f) args ret (bs "fn " ++ s_name f ++ bs "(" ++ ps ++ bs ") -> " ++ ret)) by (exists ps; now split).
    rewrite (label_ok _ _ _ _ K S1) in Lb. injection Lb as <-. exact S1.
Qed.
(** C124: a position behind the end of the text has no signature, and reads nothing *)
Theorem C124_behind : forall funcs above rest col, (above = [] \/ exists a, above = a ++ [10%N]) -> length rest < col ->
  help funcs (above ++ rest) (length (filter (N.eqb 10) above)) col = Ok None.
Proof.
  intros funcs above rest col Ab H. unfold help, before. cbv zeta. change (length (filter (N.eqb 10) above)) with (lines above). rewrite (to_line_ok above _ Ab).
  destruct (Nat.ltb_spec (length (above ++ rest)) (length (above ++ rest) - length rest + col)) as [_|L]; [reflexivity|]. rewrite app_length in L. lia.
Qed.
(** C124, false: behind an argument that is itself a call nothing is shown *)
Theorem C124_nested_refuted : ~ (forall funcs f args ret pre a b, Forall (fun c => c <> 10%N) (pre ++ a ++ b) -> (forall c q, pre = q ++ [c] -> letter c = false) -> In f funcs -> NoDup (map s_name funcs) -> known f args ret -> s_name f <> [] ->
  Forall (fun c => letter c = true) (s_name f) -> ~ In 40%N b -> ~ In 41%N b -> Forall (fun c => letter c = true) a ->
  let src := pre ++ s_name f ++ bs "(" ++ a ++ bs "()" ++ b in exists s, help funcs src 0 (length src) = Ok (Some s)).
Proof.
  intros H. specialize (H [Sig (bs "f") [Some (bs "int"); Some (bs "int")] (Some (bs "int"))] (Sig (bs "f") [Some (bs "int"); Some (bs "int")] (Some (bs "int"))) [bs "int"; bs "int"] (bs "int") [] (bs "g") (bs ", ")).
  cbn zeta in H. destruct H as [s H]; [| |now left| | |easy| | | | |vm_compute in H; discriminate].
  - cbn. apply Forall_cons; [lia|]. apply Forall_cons; [lia|]. apply Forall_cons; [lia|constructor].
  - intros c q E. destruct q; discriminate.
  - apply NoDup_cons; [intros []|constructor].
  - split; [apply Forall2_cons; [now left|apply Forall2_cons; [now left|constructor]]|]. split; [now left|]. cbn. lia.
  - apply Forall_cons; [reflexivity|constructor].
  - cbn. intros [X|[X|[]]]; discriminate.
  - cbn. intros [X|[X|[]]]; discriminate.
  - apply Forall_cons; [reflexivity|constructor].
Qed.
(** C124, false: types of more than 1023 bytes in all are written outside the buffer *)
Theorem C124_long_refuted : forall name t args ret src line col above left, 1024 <= length t -> 0 < length name < 255 ->
  at_position src line col above left -> in_call (above ++ left) name -> help [Sig name (Some t :: args) ret] src line col = UB.
Proof.
  intros name t args ret src line col above left Le [L1 L2] P C. unfold help. rewrite (before_ok _ _ _ _ _ P). cbv zeta. rewrite (scan_ok _ _ C). destruct (Nat.ltb_spec 0 (length name)); [|lia]. destruct (Nat.ltb_spec (length name) 255); [|lia].
  cbn [andb find s_name]. rewrite beq_bytes_refl. unfold label_of. cbn [s_args params_text text app]. cbv zeta. destruct (Nat.leb_spec 1024 (length t)); [reflexivity|lia].
Qed.
(** C124: the outline has one entry for each named function, struct, variable, constant and enum of the file, in order,
    each at the place its name stands, with the fields of a struct below it *)
Theorem C124_outline : forall src file, Forall (proper src) file ->
  exists es, outline (Some file) = Some es /\ Forall2 (entry_for src) (filter listed file) es.
Proof.
  intros src file F. cbn [outline option_map]. eexists. split; [reflexivity|]. induction F as [|d l H _ IH]; [constructor|]. cbn [flat_map filter].
  assert (X : if listed d then exists e, symbol_of d = [e] /\ entry_for src d e else symbol_of d = []) by (apply entries_ok; destruct d; exact H).
  destruct (listed d); [destruct X as (e & -> & X); now constructor|now rewrite X].
Qed.

Definition ex_src := bs "let n = 1
  print( add (n, ".
Definition ex_add := Sig (bs "add") [Some (bs "int"); Some (bs "u8*")] (Some (bs "int")).
Example C124_example : at_position ex_src 1 17 (bs "let n = 1
") (bs "  print( add (n, ") /\ in_call (bs "let n = 1
" ++ bs "  print( add (n, ") (bs "add") /\ known ex_add [bs "int"; bs "u8*"] (bs "int") /\ help [ex_add] ex_src 1 17 = Ok (Some (bs "fn add(int, u8*) -> int")).
Proof.
  split; [|split; [|split]].
  - exists []. split; [reflexivity|]. split; [right; exists (bs "let n = 1"); reflexivity|]. split; reflexivity.
  - exists (bs "let n = 1
  print( "), (bs " "), (bs "n, "). split; [reflexivity|]. split; [easy|]. split; [repeat (apply Forall_cons; [reflexivity|]); constructor|]. split; [apply Forall_cons; [reflexivity|constructor]|].
    split; [cbn; intros [X|[X|[X|[]]]]; discriminate|]. split; [cbn; intros [X|[X|[X|[]]]]; discriminate|]. right. exists (bs "let n = 1
  print("), 32%N. split; reflexivity.
  - split; [apply Forall2_cons; [now left|apply Forall2_cons; [now left|constructor]]|]. split; [now left|]. cbn. lia.
  - reflexivity.
Qed.
Definition ex_file := [D WStruct (Some (bs "P")) 1 8 1 [D WField (Some (bs "x")) 1 12 1 []]; D WOther None 0 0 0 []; D WFun (Some (bs "go")) 2 4 2 []].
Definition ex_text := bs "struct P { x: int; }
fn go() {}".
Example C124_outline_example : Forall (proper ex_text) ex_file /\ outline (Some ex_file) = Some [E (bs "P") 23 0 7 8 (Some [E (bs "x") 8 0 11 12 None]); E (bs "go") 12 1 3 5 None].
Proof.
  split; [|reflexivity]. apply Forall_cons; [|apply Forall_cons; [|apply Forall_cons; [|constructor]]].
  - split.
    + split; [lia|]. split; [lia|]. exists [], (bs "struct "), (bs " { x: int; }
fn go() {}"). split; [reflexivity|]. split; [now left|]. split; [vm_compute; intuition discriminate|]. repeat split.
    + apply Forall_cons; [|constructor]. split; [reflexivity|]. split; [|reflexivity]. split; [lia|]. split; [lia|]. exists [], (bs "struct P { "), (bs ": int; }
fn go() {}"). split; [reflexivity|]. split; [now left|]. split; [vm_compute; intuition discriminate|]. repeat split.
  - split; [exact Logic.I|constructor].
  - split; [|constructor]. split; [lia|]. split; [lia|]. exists (bs "struct P { x: int; }
"), (bs "fn "), (bs "() {}"). split; [reflexivity|]. split; [right; exists (bs "struct P { x: int; }"); reflexivity|]. split; [vm_compute; intuition discriminate|]. repeat split.
Qed.
Print Assumptions C124_help_partial.
Print Assumptions C124_only.
Print Assumptions C124_behind.
Print Assumptions C124_nested_refuted.
Print Assumptions C124_long_refuted.
Print Assumptions C124_outline.
