(** C95: the language server answers its requests. *)
From Verif Require Import Common Rpc_Model Rpc_Spec Rpc_Proofs.
Local Open Scope Z_scope.

(** Outline, references, tokens: one response, with the id of the request and what there is to say
    about that file and that place, whatever the state. *)
Theorem C95_answered : forall e st id m uri line col, In m file_requests -> int_id id -> int_id line -> int_id col ->
  handle e st (request (JNum id) m (at_pos uri line col [])) = (st, [Response id (e_answer e (files_of st) m uri line col [])]).
Proof. intros e st id m uri line col M I L C. rewrite any_file, !id_int by auto. reflexivity. Qed.
Print Assumptions C95_answered.
Theorem C95_rename : forall e st id uri line col new, int_id id -> int_id line -> int_id col ->
  handle e st (request (JNum id) (bs "textDocument/rename") (at_pos uri line col [(bs "newName", JStr new)])) =
    (st, [Response id (e_answer e (files_of st) (bs "textDocument/rename") uri line col new)]).
Proof. intros e st id uri line col new I L C. rewrite any_rename, !id_int by auto. reflexivity. Qed.
Print Assumptions C95_rename.
Theorem C95_initialize : forall e st id ps, int_id id ->
  exists fs r, handle e st (request (JNum id) (bs "initialize") ps) = (Some fs, [Response id r]).
Proof. intros e st id ps I. destruct (any_initialize e st (JNum id) ps) as (fs & r & E). rewrite (id_int id I) in E. eauto. Qed.
Print Assumptions C95_initialize.
(** It loads the files below the directory it is given, as a path or as an address, if there is no
    project yet, and otherwise changes nothing. *)
Definition root_params (root : bytes) : list json :=
  [JObj [(bs "rootPath", JStr root)]; JObj [(bs "rootUri", JStr (bs "file://" ++ root))]; JObj [(bs "rootPath", JNull); (bs "rootUri", JStr (bs "file://" ++ root))]].
Theorem C95_root : forall e id root ps, In ps (root_params root) -> is_prefix (bs "file://") root = false ->
  (exists (fs : files) (o : list out), handle e None (request id (bs "initialize") ps) = (Some fs, o) /\
     forall uri, text_of fs uri = last_text (map (fun '(u, t) => Open u t) (e_scan e root)) uri None) /\
  (forall fs, exists o, handle e (Some fs) (request id (bs "initialize") ps) = (Some fs, o)).
Proof.
  intros e id root ps P N. split.
  - exists (init e None root). eexists. split.
    + destruct P as [<-|[<-|[<-|[]]]].
      * assert (S : strip_file root = root) by (unfold strip_file; now rewrite N). rewrite <- S at 2. reflexivity.
      * reflexivity.
      * reflexivity.
    + intros uri. unfold init. now rewrite init_texts.
  - intros fs. destruct P as [<-|[<-|[<-|[]]]]; eexists; reflexivity.
Qed.
Print Assumptions C95_root.
(** Definition, hover, completion: one response if the file is known... *)
Theorem C95_known_partial : forall e st id m uri line col, In m place_requests -> int_id id -> int_id line -> int_id col -> known st uri = true ->
  handle e st (request (JNum id) m (at_pos uri line col [])) = (st, [Response id (e_answer e (files_of st) m uri line col [])]).
Proof. intros e st id m uri line col M I L C K. rewrite any_place, !id_int, K by auto. reflexivity. Qed.
Print Assumptions C95_known_partial.
(** ... and none if it is not: the editor waits for ever. *)
Theorem C95_unknown_file_refuted : forall e st id m uri line col, In m place_requests -> known st uri = false ->
  handle e st (request id m (at_pos uri line col [])) = (st, []).
Proof. intros e st id m uri line col M K. rewrite any_place, K by auto. reflexivity. Qed.
Print Assumptions C95_unknown_file_refuted.
(** False: signature help, which the server offers, is answered.  It never is. *)
Theorem C95_signature_refuted : forall e st id ps, handle e st (request id (bs "textDocument/signatureHelp") ps) = (st, []).
Proof. reflexivity. Qed.
Print Assumptions C95_signature_refuted.
(** False: other requests (shutdown, ...) get an answer, an error at least. *)
Theorem C95_unknown_method_refuted : forall e st id m ps, ~ In m methods -> handle e st (request id m ps) = (st, []).
Proof.
  intros e st id m ps N. unfold handle. destruct (read_request id m ps) as (E1 & E2 & E3). cbv zeta. rewrite E1, E2, E3.
  assert (F : forall x, In x methods -> beq_bytes m x = false).
  { intros x X. destruct (beq_bytes m x) eqn:E; auto. apply beq_bytes_true in E. subst. contradiction. }
  rewrite !F by (cbn [methods app place_requests file_requests In]; auto 12). reflexivity.
Qed.
Print Assumptions C95_unknown_method_refuted.
(** False: the response has the id of the request, when that is a string or does not fit an int. *)
Theorem C95_string_id_refuted : forall e st s m uri line col, In m file_requests ->
  exists r, handle e st (request (JStr s) m (at_pos uri line col [])) = (st, [Response 0 r]).
Proof. intros e st s m uri line col M. eexists. exact (any_file e st (JStr s) m uri line col M). Qed.
Print Assumptions C95_string_id_refuted.
Theorem C95_big_id_refuted : forall e st id m uri line col, In m file_requests -> 2147483647 < id ->
  exists r, handle e st (request (JNum id) m (at_pos uri line col [])) = (st, [Response 2147483647 r]).
Proof. intros e st id m uri line col M I. pose proof (any_file e st (JNum id) m uri line col M) as E.
  assert (V : valueint (JNum id) = 2147483647) by (cbn [valueint]; destruct (Z.leb_spec 2147483647 id); [reflexivity|lia]). rewrite V in E. eauto. Qed.
Print Assumptions C95_big_id_refuted.

(** After every session of opening and changing files, the server has the last text of each, has
    lost no other file, and has sent diagnostics once for each event. *)
Theorem C95_session : forall e fs evs, exists fs', run e (Some fs) (map message evs) = (Some fs', map (fun v => Diagnostics (ev_uri v)) evs) /\
  forall uri, text_of fs' uri = last_text evs uri (text_of fs uri).
Proof. intros e fs evs. destruct (run_events e evs fs []) as (fs' & A & B). exists fs'. auto. Qed.
Print Assumptions C95_session.
(** False for a notification with several changes: the first is taken, not the last. *)
Theorem C95_changes_refuted : forall e fs uri t ts, exists fs' o, handle e (Some fs) (did_change uri (t :: ts)) = (Some fs', o) /\ text_of fs' uri = Some t.
Proof. intros e fs uri t ts. rewrite handle_change. eexists. eexists. split; [reflexivity|]. cbn [init]. now rewrite text_update, beq_bytes_refl. Qed.
Print Assumptions C95_changes_refuted.
(** False: closing a file gives up the text the editor sent for it. *)
Theorem C95_close_refuted : forall e st uri, handle e st (did_close uri) = (st, []).
Proof. reflexivity. Qed.
Print Assumptions C95_close_refuted.

(** The hypotheses are met. *)
Example C95_case :
  let e := Env (bs "/w") (fun _ => [(bs "file:///w/a.zc", bs "old")]) (fun fs m uri l c arg => JNum (l * 100 + c)) in
  run e None [request (JNum 1) (bs "initialize") (JObj []); did_open (bs "file:///w/a.zc") (bs "new");
              request (JNum 2) (bs "textDocument/hover") (at_pos (bs "file:///w/a.zc") 3 4 []);
              request (JNum 3) (bs "textDocument/hover") (at_pos (bs "file:///w/b.zc") 3 4 []);
              request (JNum 4) (bs "shutdown") JNull] =
    (Some [(bs "file:///w/a.zc", bs "new")], [Response 1 (JNum 0); Diagnostics (bs "file:///w/a.zc"); Response 2 (JNum 304)]) /\
  ~ In (bs "shutdown") methods /\ int_id 2 /\ known (Some [(bs "file:///w/a.zc", bs "new")]) (bs "file:///w/a.zc") = true.
Proof.
  cbv zeta. split; [vm_compute; reflexivity|]. split; [|split; [unfold int_id; lia|reflexivity]].
  intros X. cbn [methods app place_requests file_requests In] in X. repeat (destruct X as [X|X]; [discriminate|]). destruct X.
Qed.
