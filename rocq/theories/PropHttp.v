(** HTTP properties C25-C43. Statements use HttpModel (the code), HttpSpec (HTTP/1.1 grammar) and the
    small definitions repeated here in comments; proofs are lemmas of HttpLemmas(2).v. *)
From Coq Require Import Sorting.Sorted.
From Verif Require Import Base HMap Num Utf8 Io IoProofs HttpModel HttpSpec Httparse HttpProofs HttpProofs2 HttpProofs3 HttpProofs4 HttpLemmas HttpLemmas2.

(** ** C25 *)
(** The head is the shortest prefix ending in an empty line; the reader left behind holds the rest. *)
Theorem C25_head_exact : forall U (ev : env U) s head rest tail,
  delivers true s (head ++ rest) tail -> complete_head head ->
  exists rd, request_parse ev s = request_of_head ev head rd /\
    (forall sz, positive sz -> tail = [] -> into_bytes sz (body_from_reader rd None) = Ok rest).
Proof. intros U. exact head_exact. Qed.
Print Assumptions C25_head_exact.
Theorem C25_segmentation_free : forall U (ev : env U) s1 s2 bytes,
  delivers true s1 bytes [] -> delivers true s2 bytes [] -> same_outcome (request_parse ev s1) (request_parse ev s2).
Proof. intros U. exact segmentation_free. Qed.
Print Assumptions C25_segmentation_free.
(** The same for responses. *)
Theorem C25_response_head_exact : forall U (ev : env U) s head rest tail,
  delivers true s (head ++ rest) tail -> complete_head head ->
  exists rd, response_parse ev s = response_of_head ev head rd /\
    (forall sz, positive sz -> tail = [] -> into_bytes sz (body_from_reader rd None) = Ok rest).
Proof.
  intros U ev s head rest tail Hd Hc. destruct (response_parse_head ev s head rest tail Hd Hc) as (rd & E & Hrep & Hcap).
  exists rd. split; [exact E|]. intros sz Hsz Ht. rewrite (body_content rd None rest tail sz); auto.
Qed.
Print Assumptions C25_response_head_exact.
(** What a program can observe of a parsed response. *)
Definition same_response (a b : res response_error (option response)) : Prop :=
  match a, b with
  | Ok None, Ok None => True
  | Err e, Err e' => e = e'
  | Ok (Some r), Ok (Some r') =>
      rs_status r = rs_status r' /\ rs_reason r = rs_reason r' /\ rs_headers r = rs_headers r' /\
      b_length (rs_body r) = b_length (rs_body r') /\
      forall sz sz', positive sz -> positive sz' -> into_bytes sz (rs_body r) = into_bytes sz' (rs_body r')
  | _, _ => False
  end.
Theorem C25_response_segmentation_free : forall U (ev : env U) s1 s2 bytes,
  delivers true s1 bytes [] -> delivers true s2 bytes [] -> same_response (response_parse ev s1) (response_parse ev s2).
Proof.
  intros U ev s1 s2 bytes H1 H2. destruct (head_or_none bytes) as [(head & rest & -> & Hc)|Hn].
  - destruct (response_parse_head ev s1 head rest [] H1 Hc) as (rd1 & -> & R1 & C1).
    destruct (response_parse_head ev s2 head rest [] H2 Hc) as (rd2 & -> & R2 & C2).
    unfold response_of_head. destruct (insert_headers _ _); [|reflexivity]. destruct (hr_code _); [|reflexivity]. destruct (hr_reason _); [|reflexivity].
    cbn [same_response rs_status rs_reason rs_headers rs_body b_length body_from_reader].
    do 4 (split; [reflexivity|]); intros sz sz' Hsz Hsz'.
    rewrite (body_content rd1 _ rest [] sz), (body_content rd2 _ rest [] sz'); auto.
  - rewrite (response_parse_eof ev s1 bytes), (response_parse_eof ev s2 bytes); auto. exact Logic.I.
Qed.
Print Assumptions C25_response_segmentation_free.
Example C25_example : exists r, request_parse (demo_env (@rev _))
    [Fail EInterrupted; Data (request_head (bs "POST") (bs "/a/b") demo_fields ++ bs "he"); Data (bs "lloGET")] = Ok (Some r) /\
  into_bytes sz1 (rq_body r) = Ok (bs "hello") /\ rq_method r = Post.
Proof. eexists. split; [vm_compute; reflexivity|]. split; vm_compute; reflexivity. Qed.
Example C25_example_head : complete_head (request_head (bs "POST") (bs "/a/b") demo_fields).
Proof. apply request_head_complete, demo_head_ok. Qed.

(** ** C26 *)
Theorem C26_incomplete_is_none : forall U (ev : env U) s bytes,
  delivers true s bytes [] -> no_head bytes -> request_parse ev s = Ok None.
Proof. intros U. exact request_parse_eof. Qed.
Print Assumptions C26_incomplete_is_none.
Theorem C26_transport_error : forall U (ev : env U) s bytes r,
  delivers true s bytes (Fail EOther :: r) -> no_head bytes -> request_parse ev s = Err RqIoError.
Proof. intros U. exact request_parse_err. Qed.
Print Assumptions C26_transport_error.
Theorem C26_response_incomplete_is_none : forall U (ev : env U) s bytes,
  delivers true s bytes [] -> no_head bytes -> response_parse ev s = Ok None.
Proof. intros U. exact response_parse_eof. Qed.
Print Assumptions C26_response_incomplete_is_none.
Theorem C26_response_transport_error : forall U (ev : env U) s bytes r,
  delivers true s bytes (Fail EOther :: r) -> no_head bytes -> response_parse ev s = Err RsIoError.
Proof. intros U. exact response_parse_err. Qed.
Print Assumptions C26_response_transport_error.
Theorem C26_always_terminates : forall U (ev : env U) s,
  request_parse ev s <> Panic /\ request_parse ev s <> OutOfFuel /\
  response_parse ev s <> Panic /\ response_parse ev s <> OutOfFuel.
Proof. intros U ev s. destruct (request_parse_total ev s), (response_parse_total ev s). auto. Qed.
Print Assumptions C26_always_terminates.
Example C26_example : request_parse (demo_env (@rev _)) [Data (bs "GET / HT")] = Ok None /\
  request_parse (demo_env (@rev _)) [Data (bs "GET / HT"); Fail EInterrupted; Fail EOther] = Err RqIoError.
Proof. split; vm_compute; reflexivity. Qed.

(** ** C27 *)
Theorem C27_headers_faithful : forall U (ev : env U) s meth target fs rest tail r,
  sent ev s meth target fs rest tail -> request_parse ev s = Ok (Some r) ->
  forall k v, get k (rq_headers r) = Some v <-> last_field k v fs.
Proof. intros U. exact headers_faithful. Qed.
Print Assumptions C27_headers_faithful.
Theorem C27_invalid_utf8_rejected : forall U (ev : env U) s meth target fs rest tail f,
  sent ev s meth target fs rest tail -> In f fs -> ~ is_utf8 (f_value f) -> request_parse ev s = Err RqUtf8Error.
Proof. intros U. exact invalid_value. Qed.
Print Assumptions C27_invalid_utf8_rejected.
Example C27_example : sent (demo_env (@rev _))
  [Fail EInterrupted; Data (request_head (bs "POST") (bs "/a/b") demo_fields ++ bs "he"); Data (bs "lloGET")]
  (bs "POST") (bs "/a/b") demo_fields (bs "helloGET") [].
Proof. exact demo_sent. Qed.

(** ** C28 *)
Theorem C28_url_from_target : forall U (ev : env U) s meth target fs rest tail k host,
  sent ev s meth target fs rest tail -> all_utf8 fs ->
  last_field k host fs -> to_lower k = bs "host" -> spelled_once (bs "host") fs ->
  (forall uri u, addressed host meth target uri -> url_parse ev uri = Some u ->
     exists r, request_parse ev s = Ok (Some r) /\ rq_url r = u /\ rq_method r = method_from_str meth) /\
  (forall uri, addressed host meth target uri -> url_parse ev uri = None -> request_parse ev s = Err RqInvalidUrl) /\
  ((forall uri, ~ addressed host meth target uri) -> request_parse ev s = Err RqInvalidUrl).
Proof. intros U. exact url_from_target. Qed.
Print Assumptions C28_url_from_target.
Theorem C28_missing_host : forall U (ev : env U) s meth target fs rest tail,
  sent ev s meth target fs rest tail -> all_utf8 fs ->
  Forall (fun f => to_lower (f_name f) <> bs "host") fs ->
  request_parse ev s = Err (RqMissingHeader (bs "Host")).
Proof. intros U. exact missing_host. Qed.
Print Assumptions C28_missing_host.
Theorem C28_parsed_has_host : forall U (ev : env U) s r, request_parse ev s = Ok (Some r) ->
  exists k host meth target uri, In (k, host) (rq_headers r) /\ to_lower k = bs "host" /\
    addressed host meth target uri /\ url_parse ev uri = Some (rq_url r).
Proof. intros U. exact parsed_has_host. Qed.
Print Assumptions C28_parsed_has_host.
(** What "ignoring case" means in these theorems. *)
Theorem C28_letter_case : forall k n, to_lower k = n <-> in_lower_case k n.
Proof.
  assert (forall c d, lower c = d <-> In (c, d) (combine capitals smalls) \/ d = c /\ ~ In c capitals) as L.
  { intros c d. assert (In (c, lower c) (combine capitals smalls) \/ lower c = c /\ ~ In c capitals) as H.
    { assert (forallb (fun p => byte_eqb (lower (fst p)) (snd p)) (combine capitals smalls) = true) as F1 by (vm_compute; reflexivity).
      assert (map fst (combine capitals smalls) = capitals) as F2 by (vm_compute; reflexivity).
      destruct (in_dec Byte.byte_eq_dec c capitals) as [Hi|Hn].
      - left. rewrite <- F2 in Hi. apply in_map_iff in Hi as ([c' d'] & <- & Hi). rewrite forallb_forall in F1. pose proof (F1 _ Hi) as E. cbn [fst snd] in *.
        apply byte_eqb_eq in E. now rewrite E.
      - right. split; [|exact Hn]. unfold lower. destruct (is_upper c) eqn:E; [|reflexivity]. exfalso. apply Hn. clear -E. revert E. destruct c; try discriminate; intros _; vm_compute; auto 30. }
    split; [intros <-; exact H|]. intros [H'|[-> H']].
    - cbn in H'. repeat (destruct H' as [H'|H']; [injection H' as <- <-; reflexivity|]). contradiction.
    - destruct H as [H|[H _]]; [|exact H]. apply in_combine_l in H. contradiction. }
  induction k as [|c k IH]; intros n; cbn [to_lower map]; split.
  - intros <-. constructor.
  - now inversion 1.
  - intros <-. constructor; [now apply L|]. now apply IH.
  - inversion 1; subst. f_equal; [now apply L|]. now apply IH.
Qed.
Print Assumptions C28_letter_case.
Example C28_example : all_utf8 demo_fields /\ last_field (bs "Host") (bs "example.org") demo_fields /\
  spelled_once (bs "host") demo_fields /\
  addressed (bs "example.org") (bs "POST") (bs "/a/b") (bs "http://example.org/a/b").
Proof.
  split; [apply demo_head_ok|]. split; [apply demo_spelled|]. split; [apply demo_spelled|].
  exact (origin_form (bs "example.org") (bs "POST") (bs "/a/b") (bs "a/b") eq_refl).
Qed.

(** ** C29 *)
Theorem C29_content_length : forall U (ev : env U) s meth target fs rest tail k v n r,
  sent ev s meth target fs rest tail -> request_parse ev s = Ok (Some r) ->
  last_field k v fs -> to_lower k = bs "content-length" -> spelled_once (bs "content-length") fs ->
  numeral (usize_bits ev) v n ->
  (tail = [] \/ (n <= N.of_nat (length rest))%N ->
     forall sz, positive sz -> into_bytes sz (rq_body r) = Ok (firstn (N.to_nat n) rest)) /\
  (forall ns rs b', body_reads br_read ns (rq_body r) = (rs, b') ->
     (N.of_nat (length (concat (map got rs))) <= n)%N).
Proof. intros U ev s meth target fs rest tail k v n r H1 H2 H3 H4 H5 H6. apply numeral_iff in H6. exact (body_limited ev s meth target fs rest tail k v n r H1 H2 H3 H4 H5 H6). Qed.
Print Assumptions C29_content_length.
Theorem C29_no_content_length : forall U (ev : env U) s meth target fs rest tail r,
  sent ev s meth target fs rest tail -> request_parse ev s = Ok (Some r) ->
  Forall (fun f => to_lower (f_name f) <> bs "content-length") fs -> tail = [] ->
  forall sz, positive sz -> into_bytes sz (rq_body r) = Ok rest.
Proof. intros U. exact body_unlimited. Qed.
Print Assumptions C29_no_content_length.
Example C29_example : last_field (bs "Content-Length") (bs "5") demo_fields /\ spelled_once (bs "content-length") demo_fields /\
  numeral 32 (bs "5") 5.
Proof. split; [apply demo_spelled|]. split; [apply demo_spelled|apply numeral_iff; vm_compute; reflexivity]. Qed.

(** ** C30: false when Host or Content-Length occurs in two spellings *)
Theorem C30_framing_refuted :
  (exists r1 r2, request_parse (demo_env (fun m => m)) [Data two_hosts] = Ok (Some r1) /\
     request_parse (demo_env (@rev _)) [Data two_hosts] = Ok (Some r2) /\ rq_url r1 <> rq_url r2) /\
  (exists r1 r2, request_parse (demo_env (fun m => m)) [Data two_lengths] = Ok (Some r1) /\
     request_parse (demo_env (@rev _)) [Data two_lengths] = Ok (Some r2) /\
     into_bytes sz1 (rq_body r1) = Ok (bs "x") /\ into_bytes sz1 (rq_body r2) = Ok (bs "xyz")).
Proof. exact framing_ambiguous. Qed.
Print Assumptions C30_framing_refuted.
Theorem C30_framing_partial : forall U (ev1 ev2 : env U) s1 s2 meth target fs rest,
  same_but_order ev1 ev2 -> sent ev1 s1 meth target fs rest [] -> sent ev2 s2 meth target fs rest [] ->
  spelled_once (bs "host") fs -> spelled_once (bs "content-length") fs ->
  same_message (request_parse ev1 s1) (request_parse ev2 s2).
Proof. intros U. exact framing_unambiguous. Qed.
Print Assumptions C30_framing_partial.
Example C30_example : same_but_order (demo_env (fun m => m)) (demo_env (@rev _)) /\
  spelled_once (bs "host") demo_fields /\ spelled_once (bs "content-length") demo_fields.
Proof. split; [repeat split|]. split; apply demo_spelled. Qed.

(** ** C31 *)
Theorem C31_request_round_trip : forall U (ev : env U) sz r content host u',
  env_ok ev -> reads_requests (parse_head_req ev) ->
  plain_method (rq_method r) ->
  (exists t, url_path ev (rq_url r) = bs "/" ++ t) -> Forall target_char (url_path ev (rq_url r)) ->
  writable_headers (rq_headers r) -> only_header (bs "host") host (rq_headers r) ->
  url_parse ev (bs "http://" ++ host ++ url_path ev (rq_url r)) = Some u' ->
  into_bytes sz (rq_body r) = Ok content ->
  exists wire, request_write ev sz r None = (wire, Ok tt) /\
    forall s rest tail, delivers true s (wire ++ rest) tail ->
    ((exists v, only_header (bs "content-length") v (rq_headers r) /\
        numeral (usize_bits ev) v (N.of_nat (length content))) \/
     (no_header (bs "content-length") (rq_headers r) /\ rest = [] /\ tail = [])) ->
    exists r', request_parse ev s = Ok (Some r') /\
      rq_method r' = rq_method r /\ rq_url r' = u' /\ hm_equiv (rq_headers r') (rq_headers r) /\
      forall sz', positive sz' -> into_bytes sz' (rq_body r') = Ok content.
Proof.
  intros U ev sz r host u' content H1 H2 H3 H4 H5 H6 H7 H8 H9. destruct (request_round_trip ev sz r host u' content H1 H2 H3 H4 H5 H6 H7 H8 H9) as (wire & W & H).
  exists wire. split; [exact W|]. intros s rest tail D [(v & V & N)|C]; apply (H s rest tail D); [left|now right]. exists v. split; [exact V|now apply numeral_iff].
Qed.
Print Assumptions C31_request_round_trip.
Example C31_example : plain_method (rq_method post_request) /\
  Forall target_char (url_path (demo_env (@rev _)) (rq_url post_request)) /\
  writable_headers (rq_headers post_request) /\ only_header (bs "host") (bs "example.org") (rq_headers post_request) /\
  only_header (bs "content-length") (bs "5") (rq_headers post_request) /\
  into_bytes sz1 (rq_body post_request) = Ok (bs "hello").
Proof. exact post_ok. Qed.
Example C31_example_env : env_ok (demo_env (@rev _)) /\ reads_requests (parse_head_req (demo_env (@rev _))).
Proof. split; [apply demo_ok|exact httparse_reads_requests]. Qed.

(** ** C32: the query is never written *)
Theorem C32_query_refuted :
  (forall U (ev : env U) sz hs m b u1 u2 budget, url_path ev u1 = url_path ev u2 ->
     request_write ev sz (Request hs m b u1) budget = request_write ev sz (Request hs m b u2) budget) /\
  rq_url query_request = bs "http://h/p?q=1" /\
  exists wire r', request_write (demo_env (fun m => m)) sz1 query_request None = (wire, Ok tt) /\
    request_parse (demo_env (fun m => m)) [Data wire] = Ok (Some r') /\ rq_url r' = bs "http://h/p".
Proof. split; [intros U; exact query_not_written|]. split; [reflexivity|exact query_lost]. Qed.
Print Assumptions C32_query_refuted.
(** URLs that are determined by host and path (no query) do survive. *)
Theorem C32_query_partial : forall U (ev : env U) sz r content host,
  env_ok ev -> reads_requests (parse_head_req ev) ->
  plain_method (rq_method r) ->
  (exists t, url_path ev (rq_url r) = bs "/" ++ t) -> Forall target_char (url_path ev (rq_url r)) ->
  writable_headers (rq_headers r) -> only_header (bs "host") host (rq_headers r) ->
  no_header (bs "content-length") (rq_headers r) ->
  url_parse ev (bs "http://" ++ host ++ url_path ev (rq_url r)) = Some (rq_url r) ->
  into_bytes sz (rq_body r) = Ok content ->
  forall wire s, fst (request_write ev sz r None) = wire -> delivers true s wire [] ->
  exists r', request_parse ev s = Ok (Some r') /\ rq_url r' = rq_url r.
Proof.
  intros U ev sz r content host H1 H2 H3 H4 H5 H6 H7 H8 H9 H10 wire s Hw Hd.
  destruct (request_round_trip ev sz r content host (rq_url r) H1 H2 H3 H4 H5 H6 H7 H9 H10) as (w & E & H).
  rewrite E in Hw. cbn in Hw. subst w. destruct (H s [] []) as (r' & E' & _ & Hu & _); [now rewrite app_nil_r|right; auto|]. eauto.
Qed.
Print Assumptions C32_query_partial.

(** Exactly which URLs survive: those that the host and the path alone determine. *)
Theorem C32_exactly : forall U (ev : env U) sz r content host,
  env_ok ev -> reads_requests (parse_head_req ev) ->
  plain_method (rq_method r) ->
  (exists t, url_path ev (rq_url r) = bs "/" ++ t) -> Forall target_char (url_path ev (rq_url r)) ->
  writable_headers (rq_headers r) -> only_header (bs "host") host (rq_headers r) ->
  into_bytes sz (rq_body r) = Ok content ->
  forall wire s, fst (request_write ev sz r None) = wire -> delivers true s wire [] ->
  ((exists r', request_parse ev s = Ok (Some r') /\ rq_url r' = rq_url r) <->
   url_parse ev (bs "http://" ++ host ++ url_path ev (rq_url r)) = Some (rq_url r)).
Proof.
  intros U ev sz r content host Hev Hp Hm (t & Hpath) Htc (W & Hlen & Hf) Hhost Hbody wire s Hw Hd.
  destruct (drain_of_into sz _ _ Hbody) as (chunks & b' & Ed & Ec).
  pose proof (plain_method_text _ Hm) as (Mne & Mtc & Mrt).
  rewrite (request_write_exact ev sz r chunks b' Ed) in Hw. cbn [fst] in Hw. subst wire.
  set (fs := map plain_field (rq_headers r)).
  assert (request_head_ok (method_text (rq_method r)) (url_path ev (rq_url r)) fs) as Hok.
  { split; [exact Mne|]. split; [exact Mtc|]. split; [rewrite Hpath; discriminate|]. split; [exact Htc|].
    split; [|unfold fs; now rewrite map_length].
    apply Forall_map. eapply Forall_impl; [|exact Hf]. now intros kv [H _]. }
  assert (delivers true s (request_head (method_text (rq_method r)) (url_path ev (rq_url r)) fs ++ content) []) as Hd'.
  { rewrite <- Ec. revert Hd. rewrite header_lines_fields. fold fs. unfold request_head. now rewrite <- !app_assoc. }
  assert (sent ev s (method_text (rq_method r)) (url_path ev (rq_url r)) fs content []) as Hs by (repeat split; auto; apply Hok).
  assert (all_utf8 fs) as Hu.
  { apply Forall_map. eapply Forall_impl; [|exact Hf]. intros [k v] [_ H]. exact H. }
  destruct (sent_headers ev s _ _ fs _ [] Hs Hu) as (rd & Hrep & Hcap & ->).
  assert (extend [] (map field_pair fs) = rq_headers r) as Eh.
  { unfold fs. rewrite plain_pairs. apply extend_nodup. exact W. }
  rewrite Eh. pose proof (Hev _ W) as P.
  rewrite (find_only (bs "host") host (rq_headers r) _ eq_refl Hhost P).
  destruct (request_url_addressed ev host (method_text (rq_method r)) (url_path ev (rq_url r))) as [Ha _].
  rewrite (Ha (bs "http://" ++ host ++ url_path ev (rq_url r))) by (apply origin_form with t; exact Hpath).
  destruct (url_parse ev (bs "http://" ++ host ++ url_path ev (rq_url r))) as [u|]; split.
  - intros (r' & [= <-] & E). cbn [rq_url] in E. now rewrite E.
  - intros [= ->]. eexists. split; reflexivity.
  - intros (r' & E & _). discriminate.
  - discriminate.
Qed.
Print Assumptions C32_exactly.

(** ** C33: HEAD cannot be written or parsed *)
Theorem C33_method_refuted : method_from_str (method_text Head) <> Head /\
  method_from_str (bs "HEAD") <> Head /\ forall s, method_from_str s <> Head.
Proof. exact head_not_round_trip. Qed.
Print Assumptions C33_method_refuted.
Theorem C33_method_partial : forall m, plain_method m ->
  method_text m <> [] /\ Forall tchar (method_text m) /\ method_from_str (method_text m) = m.
Proof. exact plain_method_text. Qed.
Print Assumptions C33_method_partial.
Example C33_example : plain_method Get /\ plain_method (OtherMethod (bs "DELETE")).
Proof. split; [exact I|]. split; [discriminate|]. split; [apply tchars_lit; vm_compute; reflexivity|]. split; discriminate. Qed.

(** ** C34 *)
Theorem C34_encoder_exact : forall sz r content, hm_wf (rs_headers r) -> into_bytes sz (rs_body r) = Ok content ->
  exists hs, Permutation hs (rs_headers r) /\ StronglySorted (fun a b => bytes_lt (fst a) (fst b)) hs /\
    encode sz r None =
    (bs "HTTP/1.1 " ++ dec (rs_status r) ++ bs " " ++ rs_reason r ++ CRLF ++
     flat_map (fun kv => fst kv ++ bs ": " ++ snd kv ++ CRLF) hs ++ CRLF ++ content, Ok tt).
Proof. exact encoder_exact. Qed.
Print Assumptions C34_encoder_exact.
Theorem C34_encoder_deterministic : forall sz hs1 hs2 b code reason budget, hm_wf hs1 -> hm_wf hs2 -> hm_equiv hs1 hs2 ->
  encode sz (Response hs1 b code reason) budget = encode sz (Response hs2 b code reason) budget.
Proof. exact encoder_deterministic. Qed.
Print Assumptions C34_encoder_deterministic.
Theorem C34_failed_write_prefix : forall sz r n wire res, encode sz r None = (wire, res) ->
  encode sz r (Some n) = (firstn n wire, if Nat.leb (length wire) n then res else Err EOther).
Proof. exact encode_failing. Qed.
Print Assumptions C34_failed_write_prefix.
Example C34_example : fst (encode sz1 demo_response None) =
  bs "HTTP/1.1 200 OK" ++ CRLF ++ bs "Content-Type: text/html" ++ CRLF ++ bs "Server: puck" ++ CRLF ++ CRLF ++ bs "hello".
Proof. vm_compute. reflexivity. Qed.

(** ** C35 *)
Theorem C35_response_round_trip : forall U (ev : env U) sz r content,
  env_ok ev -> reads_responses (parse_head_resp ev) ->
  (100 <= rs_status r <= 999)%N -> Forall reason_char (rs_reason r) -> writable_headers (rs_headers r) ->
  (forall k v, In (k, v) (rs_headers r) -> to_lower k = bs "content-type" -> forall n, ~ numeral (usize_bits ev) v n) ->
  into_bytes sz (rs_body r) = Ok content ->
  exists wire, encode sz r None = (wire, Ok tt) /\
    forall s, delivers true s wire [] ->
    exists r', response_parse ev s = Ok (Some r') /\
      rs_status r' = rs_status r /\ rs_reason r' = rs_reason r /\ hm_equiv (rs_headers r') (rs_headers r) /\
      forall sz', positive sz' -> into_bytes sz' (rs_body r') = Ok content.
Proof.
  intros U ev sz r content H1 H2 H3 H4 H5 H6 H7. apply (response_round_trip ev sz r content H1 H2 H3 H4 H5); [|exact H7].
  intros k v Hk Hl. apply numeral_none. exact (H6 k v Hk Hl).
Qed.
Print Assumptions C35_response_round_trip.
Example C35_example : (100 <= rs_status demo_response <= 999)%N /\ Forall reason_char (rs_reason demo_response) /\
  writable_headers (rs_headers demo_response) /\
  (forall k v, In (k, v) (rs_headers demo_response) -> to_lower k = bs "content-type" -> forall n, ~ numeral 32 v n) /\
  into_bytes sz1 (rs_body demo_response) = Ok (bs "hello").
Proof.
  destruct demo_response_ok as (H1 & H2 & H3 & H4 & H5). split; [exact H1|]. split; [exact H2|]. split; [exact H3|]. split; [|exact H5].
  intros k v Hk Hl. apply numeral_none. exact (H4 k v Hk Hl).
Qed.

(** ** C36: Content-Length of a response is ignored; a numeric Content-Type is used instead *)
Theorem C36_response_length_refuted :
  (exists r, response_parse (demo_env (fun m => m)) [Data long_response] = Ok (Some r) /\
     get (bs "Content-Length") (rs_headers r) = Some (bs "5") /\
     into_bytes sz1 (rs_body r) = Ok (bs "helloHTTP/1.1 404 NO")) /\
  (exists r, response_parse (demo_env (fun m => m)) [Data typed_response] = Ok (Some r) /\
     get (bs "Content-Length") (rs_headers r) = Some (bs "5") /\ into_bytes sz1 (rs_body r) = Ok (bs "he")).
Proof. exact content_length_ignored. Qed.
Print Assumptions C36_response_length_refuted.
(** What holds: on a connection closed after the response, the body is exactly the rest. *)
Theorem C36_response_length_partial : forall U (ev : env U) s code reason fs rest,
  env_ok ev -> reads_responses (parse_head_resp ev) -> response_head_ok code reason fs -> all_utf8 fs ->
  Forall (fun f => to_lower (f_name f) = bs "content-type" -> forall n, ~ numeral (usize_bits ev) (f_value f) n) fs ->
  delivers true s (response_head code reason fs ++ rest) [] ->
  exists r, response_parse ev s = Ok (Some r) /\ rs_status r = code /\ rs_reason r = reason /\
    (forall k v, get k (rs_headers r) = Some v <-> last_field k v fs) /\
    forall sz, positive sz -> into_bytes sz (rs_body r) = Ok rest.
Proof.
  intros U ev s code reason fs rest H1 H2 H3 H4 H5 H6. apply (response_body_to_eof ev s code reason fs rest H1 H2 H3 H4); [|exact H6].
  eapply Forall_impl; [|exact H5]. intros f Hf Hl. apply numeral_none. exact (Hf Hl).
Qed.
Print Assumptions C36_response_length_partial.

(** ** C37: a header value with CR LF is two headers on the wire *)
Theorem C37_injection_refuted : exists r1 r2,
  length (rs_headers r1) = 1 /\ length (rs_headers r2) = 2 /\ encode sz1 r1 None = encode sz1 r2 None.
Proof. exact injection_possible. Qed.
Print Assumptions C37_injection_refuted.
Theorem C37_injection_partial : forall sz r content, hm_wf (rs_headers r) -> no_crlf (rs_reason r) ->
  Forall (fun kv => no_crlf (fst kv) /\ no_crlf (snd kv)) (rs_headers r) ->
  into_bytes sz (rs_body r) = Ok content ->
  exists head hs, encode sz r None = (head ++ content, Ok tt) /\ complete_head head /\ Permutation hs (rs_headers r) /\
    split_on x0a head =
    (map (fun l => l ++ [x0d])
       ((bs "HTTP/1.1 " ++ dec (rs_status r) ++ bs " " ++ rs_reason r)
        :: map (fun kv => fst kv ++ bs ": " ++ snd kv) hs ++ [[]])) ++ [[]].
Proof. exact injection_free. Qed.
Print Assumptions C37_injection_partial.
Example C37_example : hm_wf (rs_headers demo_response) /\ no_crlf (rs_reason demo_response) /\
  Forall (fun kv => no_crlf (fst kv) /\ no_crlf (snd kv)) (rs_headers demo_response).
Proof. split; [apply nodup_lit; reflexivity|]. split; [apply no_crlf_lit; reflexivity|]. repeat (constructor; [split; apply no_crlf_lit; reflexivity|]). constructor. Qed.

(** ** C38: the verdict of the head parser is ignored *)
Theorem C38_malformed_refuted :
  hr_status (httparse_response bad_response) = HpError /\
  exists r, response_parse (demo_env (fun m => m)) [Data bad_response] = Ok (Some r) /\ rs_status r = 200%N.
Proof. exact malformed_accepted. Qed.
Print Assumptions C38_malformed_refuted.
Theorem C38_malformed_partial : forall U (ev : env U) s head rest tail r,
  delivers true s (head ++ rest) tail -> complete_head head -> response_parse ev s = Ok (Some r) ->
  hr_code (parse_head_resp ev head) = Some (rs_status r) /\ hr_reason (parse_head_resp ev head) = Some (rs_reason r) /\
  Forall (fun kv => is_utf8 (snd kv)) (hr_headers (parse_head_resp ev head)).
Proof. intros U. exact malformed_rejected. Qed.
Print Assumptions C38_malformed_partial.
(** A head without status code, or without reason, or with a value that is not UTF-8, is an error, and nothing else is. *)
Theorem C38_errors_partial : forall U (ev : env U) s head rest tail,
  delivers true s (head ++ rest) tail -> complete_head head ->
  let hp := parse_head_resp ev head in
  (Exists (fun kv => ~ is_utf8 (snd kv)) (hr_headers hp) -> response_parse ev s = Err RsUtf8Error) /\
  (Forall (fun kv => is_utf8 (snd kv)) (hr_headers hp) ->
     (hr_code hp = None -> response_parse ev s = Err RsMissingStatusCode) /\
     (forall c, hr_code hp = Some c -> hr_reason hp = None -> response_parse ev s = Err RsMissingReason) /\
     (forall c x, hr_code hp = Some c -> hr_reason hp = Some x -> exists r, response_parse ev s = Ok (Some r) /\ rs_status r = c /\ rs_reason r = x)).
Proof.
  intros U ev s head rest tail Hd Hc hp. destruct (response_parse_head ev s head rest tail Hd Hc) as (rd & -> & _ & _).
  unfold response_of_head. fold hp. split.
  - intros H. apply Exists_exists in H as (kv & Hin & Hb). now rewrite (insert_headers_bad _ [] kv Hin Hb).
  - intros H. rewrite (insert_headers_ok _ [] H).
    split; [|split].
    + now intros ->.
    + now intros c -> ->.
    + intros c x -> ->. eexists. split; [reflexivity|]. split; reflexivity.
Qed.
Print Assumptions C38_errors_partial.
Example C38_example : response_parse (demo_env (fun m => m)) [Data (bs "nonsense" ++ CRLF ++ CRLF)] = Err RsMissingStatusCode /\
  exists r, response_parse (demo_env (fun m => m)) [Data (bs "HTTP/1.1 204 No Content" ++ CRLF ++ CRLF)] = Ok (Some r) /\ rs_status r = 204%N.
Proof. split; [vm_compute; reflexivity|]. eexists. split; vm_compute; reflexivity. Qed.

(** ** C39 *)
Theorem C39_string_body : forall s, is_utf8 s ->
  b_length (body_from_string s) = Some (N.of_nat (length s)) /\
  forall sz, positive sz -> into_bytes sz (body_from_string s) = Ok s /\
    forall lim, (N.of_nat (length s) <= lim)%N -> into_string lim sz (body_from_string s) = Ok s.
Proof. exact string_body. Qed.
Print Assumptions C39_string_body.
Theorem C39_string_body_reads : forall s ns rs b', body_reads br_read ns (body_from_string s) = (rs, b') ->
  Forall2 (fun n r => exists d, r = Ok d /\ length d <= n) ns rs /\
  (exists rest, s = concat (map got rs) ++ rest) /\
  (Forall (fun n => 0 < n) ns -> length s <= length ns -> concat (map got rs) = s).
Proof. exact string_body_reads. Qed.
Print Assumptions C39_string_body_reads.
Example C39_example : exists b', body_reads br_read [2; 0; 1; 9; 4] (body_from_string (bs "hello")) =
  ([Ok (bs "he"); Ok []; Ok (bs "l"); Ok (bs "lo"); Ok []], b').
Proof. eexists. vm_compute. reflexivity. Qed.

(** ** C40 *)
(** [reader_ok]: the contract of std::io::Read, a read returns at most as many bytes as asked for. *)
Theorem C40_no_overdelivery : forall R (rd : reader_fn R) ns r0 m len rs b', reader_ok rd ->
  body_reads rd ns (Body r0 m len 0%N) = (rs, b') ->
  Forall2 (fun n r => r <> Panic /\ length (got r) <= n) ns rs /\
  b_read b' = N.of_nat (length (concat (map got rs))) /\
  (forall l, len = Some l -> (N.of_nat (length (concat (map got rs))) <= l)%N).
Proof.
  intros R rd ns r0 m len rs b' Hok H.
  apply body_reads_bound in H; [|exact Hok|unfold body_sound; cbn; destruct len; [lia|exact I]].
  destruct H as (Hs & Hl & Hr & F). cbn [b_length b_read] in *. split; [|split].
  - clear -F. induction F as [|n r ns rs (H1 & _ & H2) F IH]; constructor; auto.
  - rewrite Hr. apply N.add_0_l.
  - intros l ->. unfold body_sound in Hs. rewrite Hl, Hr in Hs. now rewrite N.add_0_l in Hs.
Qed.
Print Assumptions C40_no_overdelivery.
Theorem C40_prefix : forall ns r0 m len rs b',
  body_reads br_read ns (Body r0 m len 0%N) = (rs, b') ->
  avail r0 = concat (map got rs) ++ avail (b_reader b').
Proof.
  intros ns r0 m len rs b' H. apply body_reads_prefix in H; [exact H|]. unfold body_sound. cbn. destruct len; [lia|exact I].
Qed.
Print Assumptions C40_prefix.
Example C40_example : reader_ok br_read /\ exists b', body_reads br_read [3; 7; 7] (body_from_reader (BR [] 4 [Data (bs "abcdefgh")]) (Some 5%N)) =
  ([Ok (bs "abc"); Ok (bs "d"); Ok (bs "e")], b').
Proof. split; [exact br_reader_ok|]. eexists. vm_compute. reflexivity. Qed.

(** ** C41 *)
Theorem C41_mime_unambiguous : forall m, ~ In x3b (essence m) -> Forall (fun p => ~ In x3d (fst p)) (params m) ->
  mime_read (mime_format m) =
  Some (essence m, (if is_utf8_mime m then [(bs "charset", bs "utf-8")] else []) ++ params m).
Proof. exact mime_read_format. Qed.
Print Assumptions C41_mime_unambiguous.
Example C41_example : mime_format (Mime (bs "a/b") true [(bs "x", bs "q""\; "); (bs "y", bs "z")]) =
  bs "a/b;charset=utf-8;x=""q\""\\; "";y=z".
Proof. vm_compute. reflexivity. Qed.

(** ** C42 *)
Theorem C42_request_builder : forall U (ev : env U) url cs b0, rqb_try_new ev url = Some b0 ->
  let b := fold_left rq_step cs b0 in
  (forall m, ~ In (QMethod m) cs) /\ rqb_try_build b = None /\ rqb_build b = Panic \/
  exists r, rqb_try_build b = Some r /\ rqb_build b = Ok r /\ url_parse ev url = Some (rq_url r) /\
    (exists c1 c2, cs = c1 ++ QMethod (rq_method r) :: c2 /\ forall m, ~ In (QMethod m) c2) /\
    (forall k v, get k (rq_headers r) = Some v <-> last_set k v (rq_settings cs)) /\
    ((exists c1 c2, cs = c1 ++ QBody (rq_body r) :: c2 /\ forall bd, ~ In (QBody bd) c2) \/
     (forall bd, ~ In (QBody bd) cs) /\ rq_body r = body_empty).
Proof. intros U. exact request_builder_spec. Qed.
Print Assumptions C42_request_builder.
Example C42_example : exists b0 r, rqb_try_new (demo_env (fun m => m)) (bs "http://h/") = Some b0 /\
  rqb_build (fold_left rq_step [QHeader (bs "A") (bs "1"); QMethod Get; QHeaders [(bs "A", bs "2"); (bs "B", bs "3")]; QMethod Post] b0) = Ok r /\
  rq_method r = Post /\ get (bs "A") (rq_headers r) = Some (bs "2").
Proof. do 2 eexists. split; [vm_compute; reflexivity|]. split; [vm_compute; reflexivity|]. split; vm_compute; reflexivity. Qed.

(** ** C43 *)
Theorem C43_response_builder : forall cs,
  let r := rsb_build (fold_left rs_step cs rsb_new) in
  (forall k v, get k (rs_headers r) = Some v <-> last_set k v (rs_settings cs)) /\
  ((exists c1 c2, cs = c1 ++ PStatus (rs_status r) (rs_reason r) :: c2 /\ forall c x, ~ In (PStatus c x) c2) \/
   (forall c x, ~ In (PStatus c x) cs) /\ rs_status r = 200%N /\ rs_reason r = []) /\
  ((exists c1 c2, cs = c1 ++ PBody (rs_body r) :: c2 /\ forall bd, ~ In (PBody bd) c2) \/
   (forall bd, ~ In (PBody bd) cs) /\ rs_body r = body_empty).
Proof. exact response_builder_spec. Qed.
Print Assumptions C43_response_builder.
Example C43_example : rs_status (rsb_build (fold_left rs_step [PStatus 404 (bs "no"); PHeader (bs "A") (bs "1"); PStatus 500 (bs "err")] rsb_new)) = 500%N.
Proof. vm_compute. reflexivity. Qed.
