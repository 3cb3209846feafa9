From Verif Require Import Common Rpc_Model Rpc_Spec.
Local Open Scope Z_scope.

Lemma text_set fs uri t v : text_of (set_text fs uri t) v = if beq_bytes uri v then Some t else text_of fs v.
Proof.
  induction fs as [|[u s] fs IH]; cbn [set_text text_of]; [destruct (beq_bytes uri v); reflexivity|].
  destruct (beq_bytes u uri) eqn:E.
  - apply beq_bytes_true in E. subst u. cbn [text_of]. destruct (beq_bytes uri v) eqn:E; reflexivity.
  - cbn [text_of]. rewrite IH. destruct (beq_bytes uri v) eqn:F; [|reflexivity]. apply beq_bytes_true in F. subst v. now rewrite E.
Qed.
Lemma text_update fs uri t v : text_of (update fs uri t) v = if beq_bytes uri v then Some t else text_of fs v.
Proof.
  unfold update. destruct (text_of fs uri); [apply text_set|]. cbn [text_of]. reflexivity.
Qed.
Lemma id_int id : int_id id -> valueint (JNum id) = id.
Proof. unfold int_id. intros H. cbn [valueint]. destruct (Z.leb_spec 2147483647 id); [lia|]. destruct (Z.leb_spec id (-2147483648)); lia. Qed.

(** reading a message the protocol writes *)
Lemma read_request id m ps : get (Some (request id m ps)) (bs "id") = Some id /\ valuestring (get (Some (request id m ps)) (bs "method")) = Some m /\
  get (Some (request id m ps)) (bs "params") = Some ps.
Proof. split; [reflexivity|split; reflexivity]. Qed.
Lemma read_notification m ps : get (Some (notification m ps)) (bs "id") = None /\ valuestring (get (Some (notification m ps)) (bs "method")) = Some m /\
  get (Some (notification m ps)) (bs "params") = Some ps.
Proof. split; [reflexivity|split; reflexivity]. Qed.
Lemma read_uri uri line col more : uri_of (Some (at_pos uri line col more)) = Some uri /\
  pos_of (Some (at_pos uri line col more)) (bs "line") = valueint (JNum line) /\ pos_of (Some (at_pos uri line col more)) (bs "character") = valueint (JNum col).
Proof. split; [reflexivity|split; reflexivity]. Qed.
Lemma handle_open e st u t : handle e st (did_open u t) = (Some (update (init e st (e_cwd e)) u t), [Diagnostics u]).
Proof. reflexivity. Qed.
Lemma handle_change e st u t ts : handle e st (did_change u (t :: ts)) = (Some (update (init e st (e_cwd e)) u t), [Diagnostics u]).
Proof. reflexivity. Qed.
Lemma handle_event e st v : handle e st (message v) = (Some (update (init e st (e_cwd e)) (ev_uri v) (ev_text v)), [Diagnostics (ev_uri v)]).
Proof. destruct v as [u t|u t]; [apply handle_open|apply handle_change]. Qed.
Lemma run_cons e st m ms o : fold_left (fun '(st, o) m => let '(st, o') := handle e st m in (st, o ++ o')) (m :: ms) (st, o) =
  fold_left (fun '(st, o) m => let '(st, o') := handle e st m in (st, o ++ o')) ms (fst (handle e st m), o ++ snd (handle e st m)).
Proof. cbn [fold_left]. destruct (handle e st m). reflexivity. Qed.
Lemma run_events e evs : forall fs o, exists fs',
  fold_left (fun '(st, o) m => let '(st, o') := handle e st m in (st, o ++ o')) (map message evs) (Some fs, o) =
    (Some fs', o ++ map (fun v => Diagnostics (ev_uri v)) evs) /\ forall u, text_of fs' u = last_text evs u (text_of fs u).
Proof.
  induction evs as [|v evs IH]; intros fs o; [exists fs; cbn [map fold_left last_text]; rewrite app_nil_r; auto|].
  cbn [map]. rewrite run_cons, handle_event. cbn [fst snd init].
  destruct (IH (update fs (ev_uri v) (ev_text v)) (o ++ [Diagnostics (ev_uri v)])) as (fs' & A & B).
  exists fs'. split; [etransitivity; [exact A|]; rewrite <- app_assoc; reflexivity|]. intros u. rewrite B, text_update. reflexivity.
Qed.

Lemma any_file e st id m uri line col : In m file_requests -> handle e st (request id m (at_pos uri line col [])) =
  (st, [Response (valueint id) (e_answer e (files_of st) m uri (valueint (JNum line)) (valueint (JNum col)) [])]).
Proof. intros M. destruct M as [<-|[<-|[<-|[]]]]; reflexivity. Qed.
Lemma any_rename e st id uri line col new : handle e st (request id (bs "textDocument/rename") (at_pos uri line col [(bs "newName", JStr new)])) =
  (st, [Response (valueint id) (e_answer e (files_of st) (bs "textDocument/rename") uri (valueint (JNum line)) (valueint (JNum col)) new)]).
Proof. reflexivity. Qed.
Lemma any_initialize e st id ps : exists fs r, handle e st (request id (bs "initialize") ps) = (Some fs, [Response (valueint id) r]).
Proof. eexists; eexists; reflexivity. Qed.
Lemma strip_prefix root : strip_file (bs "file://" ++ root) = root.
Proof. reflexivity. Qed.
Lemma init_texts l uri : forall fs, text_of (fold_left (fun fs '(u, t) => update fs u t) l fs) uri = last_text (map (fun '(u, t) => Open u t) l) uri (text_of fs uri).
Proof. induction l as [|[u t] l IH]; intros fs; [reflexivity|]. cbn [fold_left map last_text ev_uri ev_text]. rewrite IH, text_update. reflexivity. Qed.
Lemma any_place e st id m uri line col : In m place_requests -> handle e st (request id m (at_pos uri line col [])) =
  (st, if known st uri then [Response (valueint id) (e_answer e (files_of st) m uri (valueint (JNum line)) (valueint (JNum col)) [])] else []).
Proof.
  intros M. assert (H : handle e st (request id m (at_pos uri line col [])) = (st, ask e st (valueint id) m (Some (at_pos uri line col [])) true [])).
  { destruct M as [<-|[<-|[<-|[]]]]; reflexivity. }
  rewrite H. unfold ask. destruct (read_uri uri line col []) as (U1 & U2 & U3). rewrite U1, U2, U3. destruct (known st uri); reflexivity.
Qed.
