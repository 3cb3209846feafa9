(** C42: the language server reads exactly the messages it is sent. *)
From Verif Require Import Common LspIO_Model LspIO_Spec LspIO_Proofs.
Local Open Scope nat_scope.

(** For every sequence of well-formed messages the server handles exactly their bodies, in
    order, and then stops.  Missing from the full claim: header lines longer than the
    server's buffer, see [C42_long_header_refuted]. *)
Theorem C42_framing_partial ms : Forall msg_ok ms -> Forall msg_short ms ->
  exists fuel, lsp_main fuel (concat (map wire ms)) = Ok (map m_body ms).
Proof. intros O S. exists (length ms + 1). apply main_msgs; auto. lia. Qed.

(** Whatever the input, the server stops at its end (unless it runs into a Content-Length
    that is not an int), having handled disjoint parts of the input, in order. *)
Theorem C42_any_input s : exists fuel,
  lsp_main fuel s = UB \/ exists l, lsp_main fuel s = Ok l /\ parts s l.
Proof. exists (length s + 1). apply main_total. lia. Qed.

(** A header of 511 characters after the length makes the server take the end of its line
    for the end of the headers, and read the body two bytes too early. *)
Theorem C42_long_header_refuted : exists m,
  msg_ok m /\ m_body m = bs "{}" /\ lsp_main 10 (wire m) = Ok [CRLF].
Proof.
  exists (Msg [] (bs "2") [bs "X: " ++ repeat 97%N 508] (bs "{}")). split; [|split; [reflexivity|vm_compute; reflexivity]].
  unfold msg_ok. cbn [m_pre m_post m_digits m_body].
  split; [constructor|]. split.
  - constructor; [|constructor]. split; [discriminate|]. split.
    + intros X. apply in_app_or in X. destruct X as [X|X]; [cbn in X; intuition discriminate|]. apply repeat_spec in X. discriminate.
    + intros [r E]. cbn in E. discriminate.
  - split; [discriminate|]. split; [repeat constructor; cbn; lia|]. split; [reflexivity|]. split; [cbn; lia|].
    cbn. intuition discriminate.
Qed.

Definition ex_msgs : list msg :=
  [Msg [bs "Content-Type: application/vscode-jsonrpc; charset=utf-8"] (bs "12") [] (bs "{""a"": [1,2]}");
   Msg [] (bs "0002") [bs "X: y"; bs "Z"] (bs "{}")].
Example C42_ex_ok : Forall msg_ok ex_msgs /\ Forall msg_short ex_msgs.
Proof.
  assert (H : forall h, existsb (N.eqb 10) h = false -> h <> [] -> is_prefix (bs "Content-Length: ") h = false -> header_ok h).
  { intros h A B C. split; [exact B|]. split.
    - intros X. assert (existsb (N.eqb 10) h = true) by (apply existsb_exists; exists 10%N; auto). congruence.
    - intros [r ->]. rewrite (proj2 (is_prefix_spec _ _)) in C by (now eexists). discriminate. }
  split.
  - repeat constructor; try (cbn; lia); try discriminate; try (intros [r E]; discriminate E); try (cbn; intuition discriminate).
  - repeat constructor; unfold short; cbn; lia.
Qed.
Example C42_ex : lsp_main 3 (concat (map wire ex_msgs)) = Ok [bs "{""a"": [1,2]}"; bs "{}"].
Proof. vm_compute. reflexivity. Qed.

Print Assumptions C42_framing_partial.
Print Assumptions C42_any_input.
Print Assumptions C42_long_header_refuted.
