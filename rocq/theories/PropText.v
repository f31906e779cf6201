(** Reading a body as text (Body::into_string) and the length it declares: C110. *)
From Verif Require Import Base HMap Num Utf8 Io IoProofs HttpModel HttpSpec Httparse HttpProofs2 HttpProofs3 HttpProofs4 HttpLemmas HttpLemmas2 FramingSpec
  RouterModel RouterProofs UpgradeModel UpgradeProofs ListModel PropHttp PropHttp2 PropRouter PropServe PropList PropList2 PropBody.
From Coq Require Import Lia.

(* ------------------------------------------------------------------ *)
(** ** C110. *)
Lemma drain_not_panic sz (b : hbody) : body_sound b -> fst (snd (drain sz b)) <> Panic.
Proof.
  unfold drain. generalize (S (length (br_buf (b_reader b)) + stream_size (br_in (b_reader b)))) at 1. intros fuel. generalize 0 at 1. revert b.
  induction fuel as [|fuel IH]; intros b i Hs; cbn [drain_loop]; [discriminate|].
  destruct (body_read br_read (sz i) b) as [r b'] eqn:E. destruct (body_read_step br_read (sz i) b r b' br_reader_ok Hs E) as (Hs' & _ & _ & Hp & _ & _).
  destruct r as [[|c d]|[] | |]; try discriminate; [| |now elim Hp].
  - specialize (IH b' (S i) Hs'). destruct (drain_loop fuel sz (S i) br_read b') as [ds [r b2]]. exact IH.
  - exact (IH b' (S i) Hs').
Qed.
Lemma from_reader_sound rd len : body_sound (body_from_reader rd len).
Proof. unfold body_sound, body_from_reader. cbn. destruct len; [lia|exact Logic.I]. Qed.
Lemma text_of lim sz (b : hbody) : body_sound b ->
  (into_string lim sz b = Panic <-> too_long lim (b_length b)) /\
  (~ too_long lim (b_length b) -> forall d, into_string lim sz b = Ok d <-> into_bytes sz b = Ok d /\ is_utf8 d).
Proof.
  intros Hs. pose proof (drain_not_panic sz b Hs) as Hp. unfold into_string. rewrite <- too_long_iff. destruct (N.ltb lim _); [split; [tauto|intros H; now elim H]|].
  split.
  - split; [|discriminate]. unfold into_bytes. destruct (drain sz b) as [ds [[[]|e| |] b']]; cbn [fst snd] in Hp; try discriminate; [|congruence].
    destruct (valid_utf8 _); discriminate.
  - intros _ d. destruct (into_bytes sz b) as [d'|e| |]; try (split; [discriminate|now intros [H _]]).
    destruct (valid_utf8 d') eqn:E.
    + apply valid_utf8_iff in E. split; [intros [= ->]; auto|]. now intros [[= ->] _].
    + split; [discriminate|]. intros [[= ->] H]. apply valid_utf8_iff in H. congruence.
Qed.
Lemma find_some name (headers : hmap str) bits n : to_lower name = name -> parsed_length bits (find_header name headers) = Some n ->
  exists k v, In (k, v) headers /\ to_lower k = name /\ numeral bits v n.
Proof.
  intros Hname. destruct (find_header name headers) as [v|] eqn:E; cbn [parsed_length]; [|discriminate]. intros H. apply find_header_some in E as (k & Hk & Hl).
  exists k, v. split; [exact Hk|]. split; [congruence|]. now apply numeral_iff.
Qed.

(** What one expects: reading a body as text gives the text, or an error if it is no text. It does for every request
    and response that is read, except if the field the length is taken from announces more than can be allocated. *)
Theorem C110_text_partial : forall U (ev : env U) s lim sz,
  (forall r, request_parse ev s = Ok (Some r) ->
     (forall k v n, In (k, v) (rq_headers r) -> to_lower k = bs "content-length" -> numeral (usize_bits ev) v n -> (n <= lim)%N) ->
     into_string lim sz (rq_body r) <> Panic /\ forall d, into_string lim sz (rq_body r) = Ok d <-> into_bytes sz (rq_body r) = Ok d /\ is_utf8 d) /\
  (forall r, response_parse ev s = Ok (Some r) ->
     (forall k v n, In (k, v) (rs_headers r) -> to_lower k = bs "content-type" -> numeral (usize_bits ev) v n -> (n <= lim)%N) ->
     into_string lim sz (rs_body r) <> Panic /\ forall d, into_string lim sz (rs_body r) = Ok d <-> into_bytes sz (rs_body r) = Ok d /\ is_utf8 d).
Proof.
  intros U ev s lim sz. split; intros r E H.
  - unfold request_parse in E. destruct (read_head _) as [[[head|]|e| |] rd]; try discriminate. unfold request_of_head in E.
    destruct (hq_status _); [| |discriminate]; (destruct (hq_method _); [|discriminate]); (destruct (insert_headers _ _) as [m|]; [|discriminate]); cbn zeta in E;
      (destruct (find_header (bs "host") _); [|discriminate]); (destruct (hq_path _); [|discriminate]); (destruct (request_url _ _ _ _); [|discriminate]);
      injection E as <-; cbn [rq_body rq_headers] in *;
      (match goal with |- context [body_from_reader rd ?len] => destruct (text_of lim sz (body_from_reader rd len) (from_reader_sound rd len)) as [A B]; cbn [b_length body_from_reader] in A, B;
         assert (~ too_long lim len) as Hn by (intros (n & En & Hlt); apply (find_some _ _ _ _ eq_refl) in En as (k & v & Hi & Hk & Hv); specialize (H k v n Hi Hk Hv); lia) end);
      (split; [intros X; apply A in X; contradiction|exact (B Hn)]).
  - unfold response_parse in E. destruct (read_head _) as [[[head|]|e| |] rd]; try discriminate. unfold response_of_head in E.
    destruct (insert_headers _ _) as [m|]; [|discriminate]. cbn zeta in E. destruct (hr_code _) as [code|]; [|discriminate]. destruct (hr_reason _) as [reason|]; [|discriminate].
    injection E as <-; cbn [rs_body rs_headers] in *.
    match goal with |- context [body_from_reader rd ?len] => destruct (text_of lim sz (body_from_reader rd len) (from_reader_sound rd len)) as [A B]; cbn [b_length body_from_reader] in A, B;
         assert (~ too_long lim len) as Hn by (intros (n & En & Hlt); apply (find_some _ _ _ _ eq_refl) in En as (k & v & Hi & Hk & Hv); specialize (H k v n Hi Hk Hv); lia) end.
    split; [intros X; apply A in X; contradiction|exact (B Hn)].
Qed.
Print Assumptions C110_text_partial.
(** But every request that announces more panics when it is read as text, whatever body comes (reading it as bytes
    works), and the list server's process for the connection dies without an answer. *)
Theorem C110_announced_length_refuted : forall U (ev : env U) s meth target fs rest tail k v n,
  sent ev s meth target fs rest tail -> last_field k v fs -> to_lower k = bs "content-length" -> spelled_once (bs "content-length") fs ->
  numeral (usize_bits ev) v n -> (max_string ev < n)%N ->
  (forall r, request_parse ev s = Ok (Some r) -> forall sz,
     into_string (max_string ev) sz (rq_body r) = Panic /\ (positive sz -> tail = [] -> (N.of_nat (length rest) <= n)%N -> into_bytes sz (rq_body r) = Ok rest)) /\
  (forall im sz pg items budget hk host uri u, image_ok im eq eq -> all_utf8 fs -> last_field hk host fs -> to_lower hk = bs "host" -> spelled_once (bs "host") fs ->
     addressed host meth target uri -> url_parse ev uri = Some u -> url_segments ev u = path_segments (url_path ev u) ->
     to_lower meth = bs "post" -> url_path ev u = bs "/submit" ->
     list_conn ev im sz pg items s budget = (items, [], LPanicked)).
Proof.
  intros U ev s meth target fs rest tail k v n Hs Hl Hk Hone Hv Hlt.
  assert (forall r, request_parse ev s = Ok (Some r) -> forall sz, into_string (max_string ev) sz (rq_body r) = Panic) as Hp.
  { intros r E sz. unfold into_string. rewrite (body_declared ev s meth target fs rest tail k v r Hs E Hl Hk Hone).
    pose proof (proj2 (numeral_iff _ _ _) Hv) as ->. apply N.ltb_lt in Hlt. now rewrite Hlt. }
  split.
  - intros r E sz. split; [now apply Hp|]. intros Hsz Ht Hlen.
    rewrite (proj1 (C29_content_length U ev s meth target fs rest tail k v n r Hs E Hl Hk Hone Hv) (or_introl Ht) sz Hsz). f_equal. apply firstn_all2. lia.
  - intros im sz pg items budget hk host uri u Him Hu Hh Hhk Hho Ha Hparse Hseg Hm Hpath.
    destruct (C28_url_from_target U ev s meth target fs rest tail hk host Hs Hu Hh Hhk Hho) as (H & _). destruct (H uri u Ha Hparse) as (req & Hreq & Hurl & Hmeth).
    rewrite (list_conn_routes ev im sz pg items s budget req Him Hreq). cbn [list_matches]. rewrite Hurl, Hmeth, !does_match_path by exact Hseg.
    rewrite (proj2 (submit_path _) Hpath). rewrite (proj2 (method_post meth) Hm).
    assert (is_get (method_from_str meth) = false) as ->. { destruct (is_get _) eqn:Eg; [|reflexivity]. apply method_get in Eg. rewrite Hm in Eg. discriminate. }
    cbn [andb list_serve]. now rewrite (Hp req Hreq sz).
Qed.
Print Assumptions C110_announced_length_refuted.

Definition huge_fields : list field := map plain_field [(bs "Host", bs "h"); (bs "Content-Length", bs "4294967295")].
Definition huge_post : stream := [Data (request_head (bs "POST") (bs "/submit") huge_fields ++ bs "message=x")].
Example C110_example : exists r,
  sent (demo_env (@rev _)) huge_post (bs "POST") (bs "/submit") huge_fields (bs "message=x") [] /\
  last_field (bs "Content-Length") (bs "4294967295") huge_fields /\ spelled_once (bs "content-length") huge_fields /\
  numeral 32 (bs "4294967295") 4294967295 /\ (max_string (demo_env (@rev _)) < 4294967295)%N /\
  request_parse (demo_env (@rev _)) huge_post = Ok (Some r) /\ into_bytes sz1 (rq_body r) = Ok (bs "message=x") /\
  list_conn (demo_env (@rev _)) list_image sz1 demo_pages [bs "tea"] huge_post None = ([bs "tea"], [], LPanicked) /\
  exists r2, request_parse (demo_env (@rev _)) (list_request_bytes (bs "POST") (bs "/submit") (bs "message=x")) = Ok (Some r2) /\
    into_string (max_string (demo_env (@rev _))) sz1 (rq_body r2) = Ok (bs "message=x").
Proof.
  pose proof (fields_lit [(bs "Host", bs "h"); (bs "Content-Length", bs "4294967295")] ltac:(vm_compute; reflexivity)) as F.
  eexists. split; [|split; [|split; [|split; [|split; [|split; [|split; [|split]]]]]]].
  - split; [apply demo_ok|]. split; [exact httparse_reads_requests|]. split.
    + split; [discriminate|]. split; [apply tchars_lit; vm_compute; reflexivity|]. split; [discriminate|]. split; [apply targets_lit; vm_compute; reflexivity|].
      split; [|cbn; lia]. apply Forall_map. eapply Forall_impl; [|exact F]. now intros kv [H _].
    + unfold huge_post. rewrite <- (app_nil_r (request_head _ _ _ ++ _)) at 2. apply dv_data; [discriminate|constructor].
  - exists [plain_field (bs "Host", bs "h")]; eexists; eexists; split; [reflexivity|]; split; [reflexivity|]; split; [reflexivity|]; constructor.
  - intros f g [<-|[<-|[]]] [<-|[<-|[]]] E1 E2; try reflexivity; exfalso; rewrite <- E1 in E2; vm_compute in E2; discriminate.
  - apply numeral_iff. vm_compute. reflexivity.
  - vm_compute. reflexivity.
  - vm_compute. reflexivity.
  - vm_compute. reflexivity.
  - vm_compute. reflexivity.
  - eexists. split; vm_compute; reflexivity.
Qed.
