(** C22: URL parsing. *)
From Verif Require Import Common Vec_Model Vec_Proofs Vec_Props String_Model String_Spec String_Proofs String_Props
  Url_Model Url_Spec Url_Proofs.

(** The components of every well-formed URL whose host has no colon come back. *)
Theorem C22_parse_partial :
  forall raw p, text raw (url_text p) -> short (url_text p) -> wf_parts p ->
  exists u, url_parse raw = Ok (Some u) /\
    text (scheme u) (p_scheme p) /\ text (host u) (p_host p) /\ port u = url_port p /\
    text (path u) (url_path p) /\ text (query u) (url_query p).
Proof.
  intros raw p H Hb W. apply text_shold in H.
  destruct (url_parse_ok raw p H Hb W) as (u & E & A & B & C & D & F).
  exists u. splits; auto; now apply text_shold.
Qed.
Print Assumptions C22_parse_partial.

(** A text without "://" is rejected. *)
Theorem C22_no_scheme :
  forall raw b, text raw b -> (forall l r, b <> l ++ bs "://" ++ r) -> url_parse raw = Ok None.
Proof.
  intros raw b H N. apply text_shold in H. unfold url_parse. rewrite (cread_ok _ _ H). cbn [bind].
  assert (E : strstr (bs "://") b = None); [|now rewrite E].
  clear H. induction b as [|c b IH]; [reflexivity|]. cbn [strstr].
  destruct (is_prefix (bs "://") (c :: b)) eqn:P.
  - apply is_prefix_spec in P as [r P]. now destruct (N [] r).
  - rewrite IH; [reflexivity|]. intros l r ->. now apply (N (c :: l) r).
Qed.
Print Assumptions C22_no_scheme.

(** An IPv6 host with a port: the port is taken to be part of the host. *)
Theorem C22_ipv6_refuted :
  exists raw u, snew (bs "http://[::1]:8080/x") = Ok raw /\ text raw (bs "http://[::1]:8080/x") /\
    url_parse raw = Ok (Some u) /\ cread (data (host u)) = Ok (bs "[::1]:8080") /\ port u = 80%Z.
Proof.
  destruct (snew_ok (bs "http://[::1]:8080/x")) as (raw & E & H). do 2 eexists. splits.
  - exact E.
  - apply text_shold. exact H.
  - vm_compute in E. injection E as <-. vm_compute. reflexivity.
  - reflexivity.
  - reflexivity.
Qed.
Print Assumptions C22_ipv6_refuted.

(** Every scheme other than https gets port 80, wss included. *)
Theorem C22_default_port_refuted :
  exists raw u, snew (bs "wss://h/x") = Ok raw /\ text raw (bs "wss://h/x") /\
    url_parse raw = Ok (Some u) /\ cread (data (scheme u)) = Ok (bs "wss") /\ port u = 80%Z.
Proof.
  destruct (snew_ok (bs "wss://h/x")) as (raw & E & H). do 2 eexists. splits.
  - exact E.
  - apply text_shold. exact H.
  - vm_compute in E. injection E as <-. vm_compute. reflexivity.
  - reflexivity.
  - reflexivity.
Qed.
Print Assumptions C22_default_port_refuted.

Example C22_example :
  let p := mkparts (bs "https") (bs "a.b") (Some (bs "8443")) (Some (bs "x/y")) (Some (bs "k=v?w")) in
  url_text p = bs "https://a.b:8443/x/y?k=v?w" /\ wf_parts p /\ short (url_text p) /\
  exists raw u, snew (url_text p) = Ok raw /\ text raw (url_text p) /\ url_parse raw = Ok (Some u) /\
    cread (data (scheme u)) = Ok (bs "https") /\ cread (data (host u)) = Ok (bs "a.b") /\
    port u = 8443%Z /\ cread (data (path u)) = Ok (bs "/x/y") /\ cread (data (query u)) = Ok (bs "k=v?w").
Proof.
  cbv zeta. splits.
  - reflexivity.
  - unfold wf_parts. splits.
    + intros I. repeat (destruct I as [I|I]; [discriminate I|]). destruct I.
    + intros I. repeat (destruct I as [I|I]; [discriminate I|]). destruct I.
    + intros c I J. repeat (destruct I as [<-|I]; [repeat (destruct J as [J|J]; [discriminate J|]); destruct J|]). destruct I.
    + intros ds [= <-]. splits; [discriminate| |reflexivity]. repeat constructor; discriminate.
    + intros x [= <-] I. repeat (destruct I as [I|I]; [discriminate I|]). destruct I.
  - vm_compute. reflexivity.
  - destruct (snew_ok (bs "https://a.b:8443/x/y?k=v?w")) as (raw & E & H). do 2 eexists. splits.
    + exact E.
    + apply text_shold. exact H.
    + vm_compute in E. injection E as <-. vm_compute. reflexivity.
    + reflexivity.
    + reflexivity.
    + reflexivity.
    + reflexivity.
    + reflexivity.
Qed.
