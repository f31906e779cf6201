(** More about HTTP messages: C89 (replace_body, take_body), C90 (several requests on a connection),
    C91 (for_each), C92 (RFC 7230 body framing), C93 (size of heads), C94 (forwarding). *)
From Coq Require Import Sorting.Sorted.
From Verif Require Import Base HMap Num Utf8 Io IoProofs HttpModel HttpSpec Httparse HttpProofs HttpProofs2 HttpProofs3 HttpProofs4 HttpLemmas HttpLemmas2 RouterModel RouterProofs FramingSpec.

(* ------------------------------------------------------------------ *)
(** ** C89 *)

(** Calls of the two methods on a message: the bodies handed out, in order, and the message afterwards. *)
Inductive body_call := Replace (b : hbody) | Take.
Fixpoint request_calls {U} (cs : list body_call) (r : request U) : list hbody * request U :=
  match cs with
  | [] => ([], r)
  | c :: cs' =>
      let '(out, r1) := match c with Replace b => request_replace_body r b | Take => request_take_body r end in
      let '(outs, r2) := request_calls cs' r1 in (out :: outs, r2)
  end.
Fixpoint response_calls (cs : list body_call) (r : response) : list hbody * response :=
  match cs with
  | [] => ([], r)
  | c :: cs' =>
      let '(out, r1) := match c with Replace b => response_replace_body r b | Take => response_take_body r end in
      let '(outs, r2) := response_calls cs' r1 in (out :: outs, r2)
  end.
(** [b] is an empty body: it declares length 0 and reading it gives nothing. *)
Definition is_empty_body (b : hbody) : Prop := b_length b = Some 0%N /\ forall sz, into_bytes sz b = Ok [].
(** What a call puts into the message. *)
Definition put (c : body_call) (b : hbody) : Prop := match c with Replace b' => b = b' | Take => is_empty_body b end.

Lemma empty_is_empty : is_empty_body body_empty.
Proof. split; [reflexivity|]. intros sz. reflexivity. Qed.

(** Every body comes out exactly once, in the order it went in; the last one stays. *)
Theorem C89_bodies_in_order : forall U cs (r : request U) outs r', request_calls cs r = (outs, r') ->
  rq_method r' = rq_method r /\ rq_url r' = rq_url r /\
  exists bodies, Forall2 put cs bodies /\ outs ++ [rq_body r'] = rq_body r :: bodies.
Proof.
  intros U cs. induction cs as [|c cs IH]; intros r outs r'; cbn [request_calls].
  - intros [= <- <-]. split; [reflexivity|]. split; [reflexivity|]. exists []. split; [constructor|reflexivity].
  - destruct c as [b|]; cbn [request_replace_body request_take_body];
      (destruct (request_calls cs _) as [outs2 r2] eqn:E; intros [= <- <-]; apply IH in E as (Hm & Hu & bodies & F & E));
      cbn in Hm, Hu, E; (split; [exact Hm|split; [exact Hu|]]); eexists (_ :: bodies); (split; [|cbn [app]; f_equal; exact E]).
    + constructor; [reflexivity|exact F].
    + constructor; [exact empty_is_empty|exact F].
Qed.
Print Assumptions C89_bodies_in_order.
Theorem C89_response_bodies_in_order : forall cs r outs r', response_calls cs r = (outs, r') ->
  rs_status r' = rs_status r /\ rs_reason r' = rs_reason r /\
  exists bodies, Forall2 put cs bodies /\ outs ++ [rs_body r'] = rs_body r :: bodies.
Proof.
  intros cs. induction cs as [|c cs IH]; intros r outs r'; cbn [response_calls].
  - intros [= <- <-]. split; [reflexivity|]. split; [reflexivity|]. exists []. split; [constructor|reflexivity].
  - destruct c as [b|]; cbn [response_replace_body response_take_body];
      (destruct (response_calls cs _) as [outs2 r2] eqn:E; intros [= <- <-]; apply IH in E as (Hm & Hu & bodies & F & E));
      cbn in Hm, Hu, E; (split; [exact Hm|split; [exact Hu|]]); eexists (_ :: bodies); (split; [|cbn [app]; f_equal; exact E]).
    + constructor; [reflexivity|exact F].
    + constructor; [exact empty_is_empty|exact F].
Qed.
Print Assumptions C89_response_bodies_in_order.
(** After at least one call the Content-Type is that of the body the message has; other fields stay. *)
Lemma set_twice k (v w : str) m k' : get k' (insert k v (insert k w m)) = get k' (insert k v m).
Proof. rewrite !get_insert. now destruct (str_eqb k' k). Qed.
Theorem C89_content_type : forall U cs (r : request U) outs r', request_calls cs r = (outs, r') -> cs <> [] ->
  get (bs "Content-Type") (rq_headers r') = Some (mime_format (b_mime (rq_body r'))) /\
  forall k, k <> bs "Content-Type" -> get k (rq_headers r') = get k (rq_headers r).
Proof.
  assert (forall U cs (r : request U) outs r', request_calls cs r = (outs, r') ->
    get (bs "Content-Type") (rq_headers r) = Some (mime_format (b_mime (rq_body r))) \/ cs <> [] ->
    get (bs "Content-Type") (rq_headers r') = Some (mime_format (b_mime (rq_body r'))) /\
    forall k, k <> bs "Content-Type" -> get k (rq_headers r') = get k (rq_headers r)) as G.
  { intros U cs. induction cs as [|c cs IH]; intros r outs r'; cbn [request_calls].
    - intros [= <- <-] [H|H]; [|congruence]. auto.
    - intros E _.
      assert (exists b outs2, request_calls cs (Request (insert (bs "Content-Type") (mime_format (b_mime b)) (rq_headers r)) (rq_method r) b (rq_url r)) = (outs2, r')) as (b & outs2 & E').
      { destruct c as [b|]; cbn [request_replace_body request_take_body] in E;
          destruct (request_calls cs _) as [outs2 r2] eqn:E2 in E; injection E as _ <-; eauto. }
      apply IH in E' as [H1 H2]; [|left; cbn; now rewrite get_insert, str_eqb_refl]. split; [exact H1|].
      intros k Hk. rewrite H2 by exact Hk. cbn [rq_headers]. rewrite get_insert. destruct (str_eqb k _) eqn:Ek; [|reflexivity].
      apply str_eqb_eq in Ek. contradiction. }
  intros U cs r outs r' E H. apply (G U cs r outs r' E). now right.
Qed.
Print Assumptions C89_content_type.
Theorem C89_response_content_type : forall cs r outs r', response_calls cs r = (outs, r') -> cs <> [] ->
  get (bs "Content-Type") (rs_headers r') = Some (mime_format (b_mime (rs_body r'))) /\
  forall k, k <> bs "Content-Type" -> get k (rs_headers r') = get k (rs_headers r).
Proof.
  assert (forall cs r outs r', response_calls cs r = (outs, r') ->
    get (bs "Content-Type") (rs_headers r) = Some (mime_format (b_mime (rs_body r))) \/ cs <> [] ->
    get (bs "Content-Type") (rs_headers r') = Some (mime_format (b_mime (rs_body r'))) /\
    forall k, k <> bs "Content-Type" -> get k (rs_headers r') = get k (rs_headers r)) as G.
  { intros cs. induction cs as [|c cs IH]; intros r outs r'; cbn [response_calls].
    - intros [= <- <-] [H|H]; [|congruence]. auto.
    - intros E _.
      assert (exists b outs2, response_calls cs (Response (insert (bs "Content-Type") (mime_format (b_mime b)) (rs_headers r)) b (rs_status r) (rs_reason r)) = (outs2, r')) as (b & outs2 & E').
      { destruct c as [b|]; cbn [response_replace_body response_take_body] in E;
          destruct (response_calls cs _) as [outs2 r2] eqn:E2 in E; injection E as _ <-; eauto. }
      apply IH in E' as [H1 H2]; [|left; cbn; now rewrite get_insert, str_eqb_refl]. split; [exact H1|].
      intros k Hk. rewrite H2 by exact Hk. cbn [rs_headers]. rewrite get_insert. destruct (str_eqb k _) eqn:Ek; [|reflexivity].
      apply str_eqb_eq in Ek. contradiction. }
  intros cs r outs r' E H. apply (G cs r outs r' E). now right.
Qed.
Print Assumptions C89_response_content_type.

(** False: "the receiver of the message gets the new body". The old Content-Length stays, so a request
    whose body is replaced arrives cut off; and a Content-Type in another spelling stays next to the new one. *)
Definition lower_type_request : request str :=
  Request [(bs "Host", bs "h"); (bs "content-type", bs "text/html")] Post (body_from_string (bs "x")) (bs "http://h/").
Theorem C89_new_body_refuted :
  (exists old r wire r', request_replace_body post_request (body_from_string (bs "hello, world")) = (old, r) /\
     request_write (demo_env (fun m => m)) sz1 r None = (wire, Ok tt) /\
     request_parse (demo_env (fun m => m)) [Data wire] = Ok (Some r') /\
     into_bytes sz1 (rq_body r') = Ok (bs "hello")) /\
  (exists old r, request_take_body lower_type_request = (old, r) /\
     get (bs "content-type") (rq_headers r) = Some (bs "text/html") /\
     get (bs "Content-Type") (rq_headers r) = Some (bs "application/octet-stream")).
Proof.
  split.
  - do 4 eexists. split; [vm_compute; reflexivity|]. split; [vm_compute; reflexivity|]. split; [vm_compute; reflexivity|]. vm_compute. reflexivity.
  - do 2 eexists. split; [vm_compute; reflexivity|]. split; vm_compute; reflexivity.
Qed.
Print Assumptions C89_new_body_refuted.

Lemma in_insert k v (m : hmap str) k' v' : hm_wf m -> In (k', v') (insert k v m) -> (k', v') = (k, v) \/ (k' <> k /\ In (k', v') m).
Proof.
  intros W Hin. apply in_get in Hin; [|now apply insert_wf]. rewrite get_insert in Hin.
  destruct (str_eqb k' k) eqn:E.
  - apply str_eqb_eq in E as ->. injection Hin as ->. now left.
  - apply str_eqb_neq in E. right. split; [exact E|]. now apply get_some_in.
Qed.
Lemma length_insert k v (m : hmap str) : length (insert k v m) <= S (length m).
Proof.
  assert (length (keys (insert k v m)) <= S (length (keys m))) as H.
  { rewrite keys_insert. destruct (contains_key k m); [lia|]. rewrite app_length. cbn. lia. }
  unfold keys in H. now rewrite !map_length in H.
Qed.
Lemma writable_insert k v (m : hmap str) : writable_headers m -> length m <= 19 ->
  field_ok (plain_field (k, v)) -> is_utf8 v -> writable_headers (insert k v m).
Proof.
  intros (W & L & F) HL Hf Hu. split; [now apply insert_wf|]. split; [pose proof (length_insert k v m); lia|].
  apply Forall_forall. intros [k' v'] Hin. apply in_insert in Hin as [E|[_ Hin]]; [|rewrite Forall_forall in F; now apply F|exact W].
  now injection E as -> ->.
Qed.
Lemma only_insert name v k w (m : hmap str) : hm_wf m -> only_header name v m -> to_lower k <> name -> only_header name v (insert k w m).
Proof.
  intros W (k0 & Hin & Hk & Hu) Hne. exists k0. split; [|split; [exact Hk|]].
  - apply get_some_in. rewrite get_insert. destruct (str_eqb k0 k) eqn:E; [apply str_eqb_eq in E; congruence|]. now apply in_get.
  - intros k' v' Hin' Hk'. apply in_insert in Hin' as [E|[_ Hin']]; [|now apply Hu|exact W].
    injection E as -> _. contradiction.
Qed.
Lemma no_insert name k w (m : hmap str) : hm_wf m -> no_header name m -> to_lower k <> name -> no_header name (insert k w m).
Proof.
  intros W H Hne k' v' Hin. apply in_insert in Hin as [E|[_ Hin]]; [|eapply H; exact Hin|exact W]. now injection E as -> _.
Qed.

(** What holds: a message without Content-Length, on a connection of its own, arrives with the new body
    and its type. *)
Theorem C89_new_body_partial : forall U (ev : env U) sz (r : request U) b content host u',
  env_ok ev -> reads_requests (parse_head_req ev) -> plain_method (rq_method r) ->
  (exists t, url_path ev (rq_url r) = bs "/" ++ t) -> Forall target_char (url_path ev (rq_url r)) ->
  writable_headers (rq_headers r) -> length (rq_headers r) <= 19 ->
  only_header (bs "host") host (rq_headers r) -> no_header (bs "content-length") (rq_headers r) ->
  url_parse ev (bs "http://" ++ host ++ url_path ev (rq_url r)) = Some u' ->
  field_ok (plain_field (bs "Content-Type", mime_format (b_mime b))) -> is_utf8 (mime_format (b_mime b)) ->
  into_bytes sz b = Ok content ->
  exists old r1 wire, request_replace_body r b = (old, r1) /\ request_write ev sz r1 None = (wire, Ok tt) /\
    forall s, delivers true s wire [] ->
    exists r', request_parse ev s = Ok (Some r') /\ rq_method r' = rq_method r /\ rq_url r' = u' /\
      get (bs "Content-Type") (rq_headers r') = Some (mime_format (b_mime b)) /\
      (forall k, k <> bs "Content-Type" -> get k (rq_headers r') = get k (rq_headers r)) /\
      forall sz', positive sz' -> into_bytes sz' (rq_body r') = Ok content.
Proof.
  intros U ev sz r b content host u' H1 H2 H3 H4 H5 H6 H6' H7 H8 H9 Hf Hu Hb.
  pose proof H6 as (W & _ & _).
  set (r1 := Request (insert (bs "Content-Type") (mime_format (b_mime b)) (rq_headers r)) (rq_method r) b (rq_url r)).
  destruct (request_round_trip ev sz r1 content host u') as (wire & E & H); auto.
  { now apply writable_insert. }
  { apply only_insert; auto. discriminate. }
  exists (rq_body r), r1, wire. split; [reflexivity|]. split; [exact E|]. intros s Hs.
  destruct (H s [] []) as (r' & E' & Hm & Hurl & He & Hc).
  { now rewrite app_nil_r. }
  { right. split; [|auto]. apply no_insert; auto. discriminate. }
  exists r'. split; [exact E'|]. split; [exact Hm|]. split; [exact Hurl|]. split; [|split; [|exact Hc]].
  - rewrite He. cbn. now rewrite get_insert, str_eqb_refl.
  - intros k Hk. rewrite He. cbn [rq_headers r1]. rewrite get_insert. destruct (str_eqb k _) eqn:Ek; [|reflexivity].
    apply str_eqb_eq in Ek. contradiction.
Qed.
Print Assumptions C89_new_body_partial.
Example C89_example : exists outs r', request_calls [Replace (body_from_string (bs "one")); Take; Replace (body_from_string (bs "two"))] post_request = (outs, r') /\
  outs = [body_from_string (bs "hello"); body_from_string (bs "one"); body_empty] /\ rq_body r' = body_from_string (bs "two").
Proof. do 2 eexists. split; [reflexivity|]. split; reflexivity. Qed.
Example C89_example_partial : writable_headers (rq_headers lower_type_request) /\ only_header (bs "host") (bs "h") (rq_headers lower_type_request) /\
  no_header (bs "content-length") (rq_headers lower_type_request) /\
  field_ok (plain_field (bs "Content-Type", mime_format (b_mime (body_from_string (bs "new"))))).
Proof.
  split; [|split; [|split]].
  - split; [apply nodup_lit; vm_compute; reflexivity|]. split; [cbn; lia|]. apply fields_lit. vm_compute. reflexivity.
  - exists (bs "Host"). split; [now left|]. split; [reflexivity|].
    intros k' v' [E|[E|[]]] Hk; injection E as <- <-; vm_compute in Hk; try discriminate Hk; auto.
  - intros k v [E|[E|[]]]; injection E as <- <-; vm_compute; discriminate.
  - apply field_lit. vm_compute. reflexivity.
Qed.

(* ------------------------------------------------------------------ *)
(** ** C90 *)

(** A GET request for "/" of host "h" with an empty body of declared length 0. *)
Definition small_get : str := request_head (bs "GET") (bs "/") (map plain_field [(bs "Host", bs "h"); (bs "Content-Length", bs "0")]).
(** False: whatever is sent, at most one handler runs; in particular only the first of two requests is served. *)
Theorem C90_pipelining_refuted :
  (forall M H U S (ev : env U) (im : image M H) run_m sz ints s (st : S) budget calls,
     serve_conn ev im run_m sz ints s st budget = Handled calls -> length calls <= 1) /\
  exists r, serve_conn (demo_env (fun m => m)) no_image (fun (b : bool) (_ : request str) => b) sz1 (as_ints no_image [Route true tt])
    [Data (small_get ++ small_get)] tt None = Handled [(tt, r, tt)].
Proof.
  split.
  - intros M H U S ev im run_m sz ints s st budget calls. unfold serve_conn. destruct (from_ints im ints) as [r|]; [|discriminate].
    destruct (request_parse ev s) as [[req|]|e| |]; try discriminate. intros [= <-].
    induction r as [|x r IH]; cbn [respond]; [cbn; lia|]. destruct (run_m _ _); [cbn; lia|exact IH].
  - eexists. vm_compute. reflexivity.
Qed.
Print Assumptions C90_pipelining_refuted.
(** What holds: how the first request is parsed does not depend on what follows it: the handler gets the
    same method, URL, headers and body. *)
Theorem C90_first_partial : forall U (ev : env U) s s' meth target fs content rest tail k v,
  sent ev s meth target fs content [] -> sent ev s' meth target fs (content ++ rest) tail ->
  last_field k v fs -> to_lower k = bs "content-length" -> spelled_once (bs "content-length") fs ->
  numeral (usize_bits ev) v (N.of_nat (length content)) ->
  (forall e, request_parse ev s = Err e <-> request_parse ev s' = Err e) /\
  forall r, request_parse ev s = Ok (Some r) -> exists r', request_parse ev s' = Ok (Some r') /\
    rq_method r' = rq_method r /\ rq_url r' = rq_url r /\ rq_headers r' = rq_headers r /\
    forall sz, positive sz -> into_bytes sz (rq_body r) = Ok content /\ into_bytes sz (rq_body r') = Ok content.
Proof.
  intros U ev s s' meth target fs content rest tail k v Hs Hs' Hl Hk Hone Hn. apply numeral_iff in Hn.
  assert (forall r r', request_parse ev s = Ok (Some r) -> request_parse ev s' = Ok (Some r') ->
    forall sz, positive sz -> into_bytes sz (rq_body r) = Ok content /\ into_bytes sz (rq_body r') = Ok content) as HB.
  { intros r r' E E' sz Hsz.
    destruct (body_limited ev s meth target fs content [] k v _ r Hs E Hl Hk Hone Hn) as [B _].
    destruct (body_limited ev s' meth target fs (content ++ rest) tail k v _ r' Hs' E' Hl Hk Hone Hn) as [B' _].
    rewrite B, B' by (auto; right; rewrite app_length; lia). rewrite Nnat.Nat2N.id, firstn_all, firstn_app, Nat.sub_diag, firstn_all. cbn.
    now rewrite app_nil_r. }
  destruct (utf8_or_not fs) as [Hu|(f & Hf & Hb)].
  2:{ rewrite (invalid_value ev s meth target fs content [] f Hs Hf Hb), (invalid_value ev s' meth target fs (content ++ rest) tail f Hs' Hf Hb).
      split; [tauto|discriminate]. }
  destruct (sent_headers ev s meth target fs content [] Hs Hu) as (rd & _ & _ & E).
  destruct (sent_headers ev s' meth target fs (content ++ rest) tail Hs' Hu) as (rd' & _ & _ & E').
  cbn zeta in E, E'. destruct (find_header (bs "host") _) as [host|] in E, E'; [|rewrite E, E'; split; [tauto|discriminate]].
  destruct (request_url ev host meth target) as [u|]; [|rewrite E, E'; split; [tauto|discriminate]].
  split; [rewrite E, E'; split; discriminate|]. intros r Er. eexists. split; [exact E'|].
  pose proof (HB _ _ Er E') as HB'. rewrite E in Er. injection Er as <-. cbn [rq_method rq_url rq_headers]. repeat (split; [reflexivity|]). exact HB'.
Qed.
Print Assumptions C90_first_partial.
Example C90_example : exists r r', request_parse (demo_env (fun m => m)) [Data small_get] = Ok (Some r) /\
  request_parse (demo_env (fun m => m)) [Data (small_get ++ small_get)] = Ok (Some r') /\
  into_bytes sz1 (rq_body r') = Ok [] /\ rq_headers r' = rq_headers r.
Proof. do 2 eexists. split; [vm_compute; reflexivity|]. split; [vm_compute; reflexivity|]. split; vm_compute; reflexivity. Qed.

(* ------------------------------------------------------------------ *)
(** ** C91. [each_conn] is what [for_each] does with one connection. *)
(** False: a connection without a (complete, well-formed) request is dropped without an answer: the process panics. *)
Theorem C91_for_each_refuted :
  (forall M H U S (ev : env U) (im : image M H) func s (st : S) bytes, delivers true s bytes [] -> no_head bytes ->
     each_conn ev im func s st = Crashed) /\
  each_conn (demo_env (fun m => m)) no_image 0 [Data (request_head (bs "GET") (bs "/") [])] tt = Crashed.
Proof.
  split; [|vm_compute; reflexivity]. intros M H U S ev im func s st bytes Hd Hn. unfold each_conn.
  now rewrite (request_parse_eof ev s bytes Hd Hn).
Qed.
Print Assumptions C91_for_each_refuted.
(** What holds: every well-formed request leads to exactly one call of the function, with this request
    and the state; the server's router plays no role. *)
Theorem C91_for_each_partial : forall M H U S (ev : env U) (im : image M H) (f : H) s (st : S) meth target fs rest tail k host uri u,
  image_ok im eq eq ->
  sent ev s meth target fs rest tail -> all_utf8 fs ->
  last_field k host fs -> to_lower k = bs "host" -> spelled_once (bs "host") fs ->
  addressed host meth target uri -> url_parse ev uri = Some u ->
  exists r, each_conn ev im (h_addr im f) s st = Handled [(f, r, st)] /\ rq_url r = u /\ rq_method r = method_from_str meth /\
    (forall k v, get k (rq_headers r) = Some v <-> last_field k v fs).
Proof.
  intros M H U S ev im f s st meth target fs rest tail k host uri u [_ Him] Hs Hu Hl Hk Hone Ha Hp.
  destruct (url_from_target ev s meth target fs rest tail k host Hs Hu Hl Hk Hone) as (A & _ & _).
  destruct (A uri u Ha Hp) as (r & E & Hurl & Hm). exists r.
  split; [|split; [exact Hurl|split; [exact Hm|exact (headers_faithful ev s meth target fs rest tail r Hs E)]]].
  unfold each_conn. rewrite E. destruct (Him f) as (g & -> & <-). reflexivity.
Qed.
Print Assumptions C91_for_each_partial.
Lemma request_url_some {U} (ev : env U) host meth target u : request_url ev host meth target = Some u ->
  exists uri, addressed host meth target uri /\ url_parse ev uri = Some u.
Proof.
  destruct (request_url_addressed ev host meth target) as [_ Hn]. intros E.
  assert (forall p, starts_with p target = false -> forall t, target <> p ++ t) as Hp.
  { intros p Hp t ->. apply Bool.not_true_iff_false in Hp. apply Hp. apply starts_with_spec. eauto. }
  unfold request_url in E. destruct (starts_with (bs "http://") target || starts_with (bs "https://") target) eqn:E1.
  { exists target. split; [|exact E]. apply orb_true_iff in E1 as [E1|E1]; apply starts_with_spec in E1 as (t & E1); apply absolute_form with t; auto. }
  destruct (starts_with (bs "/") target) eqn:E2.
  { exists (bs "http://" ++ host ++ target). split; [|exact E]. apply starts_with_spec in E2 as (t & E2). now apply origin_form with t. }
  destruct (eq_ignore_case meth (bs "connect")) eqn:E3; [|discriminate]. exists (bs "http://" ++ host ++ bs "/"). split; [|exact E].
  apply connect_form; [now apply eq_ignore_case_spec in E3|]. apply orb_false_iff in E1 as [Ea Eb]. intros t. auto.
Qed.
(** Exactly when: for a connection that carries a request head, the function is called if and only if the fields are UTF-8
    and the Host field and the target make a URL; in all other cases the process crashes. *)
Theorem C91_exactly : forall M H U S (ev : env U) (im : image M H) (f : H) s (st : S) meth target fs rest tail,
  image_ok im eq eq -> sent ev s meth target fs rest tail -> spelled_once (bs "host") fs ->
  ((exists r, each_conn ev im (h_addr im f) s st = Handled [(f, r, st)]) <->
   all_utf8 fs /\ exists k host uri u, last_field k host fs /\ to_lower k = bs "host" /\
     addressed host meth target uri /\ url_parse ev uri = Some u) /\
  ((exists r, each_conn ev im (h_addr im f) s st = Handled [(f, r, st)]) \/ each_conn ev im (h_addr im f) s st = Crashed).
Proof.
  intros M H U S ev im f s st meth target fs rest tail Him Hs Hone.
  assert ((exists r, each_conn ev im (h_addr im f) s st = Handled [(f, r, st)]) <-> exists r, request_parse ev s = Ok (Some r)) as Hd.
  { unfold each_conn. destruct Him as [_ Him]. destruct (Him f) as (g & -> & <-). destruct (request_parse ev s) as [[r|]| | |]; split; intros (r' & E); try discriminate; eauto. }
  split.
  - rewrite Hd. clear Hd Him. split.
    + intros (r & E). destruct (utf8_or_not fs) as [Hu|(g & Hg & Hb)].
      2: { rewrite (sent_bad_utf8 ev s meth target fs rest tail Hs g Hg Hb) in E. discriminate. }
      split; [exact Hu|]. destruct (sent_headers ev s meth target fs rest tail Hs Hu) as (rd & _ & _ & E'). rewrite E' in E. clear E'.
      destruct (find_once ev s meth target fs rest tail (bs "host") Hs eq_refl Hone) as [(k & v & Hl & Hk & E')|(_ & E')]; rewrite E' in E; [|discriminate].
      destruct (request_url ev v meth target) as [u|] eqn:Eu; [|discriminate]. apply request_url_some in Eu as (uri & Ha & Hp). exists k, v, uri, u. auto.
    + intros (Hu & k & host & uri & u & Hl & Hk & Ha & Hp). destruct (url_from_target ev s meth target fs rest tail k host Hs Hu Hl Hk Hone) as (A & _ & _).
      destruct (A uri u Ha Hp) as (r & E & _). eauto.
  - unfold each_conn. destruct Him as [_ Him]. destruct (Him f) as (g & -> & <-). destruct (request_parse ev s) as [[r|]| | |]; eauto.
Qed.
Print Assumptions C91_exactly.
Example C91_example : exists r, each_conn (demo_env (@rev _)) no_image (h_addr no_image tt)
    [Fail EInterrupted; Data (request_head (bs "POST") (bs "/a/b") demo_fields ++ bs "he"); Data (bs "lloGET")] 7 = Handled [(tt, r, 7)] /\
  rq_url r = bs "http://example.org/a/b" /\ rq_method r = Post.
Proof. eexists. split; [vm_compute; reflexivity|]. split; vm_compute; reflexivity. Qed.

(* ------------------------------------------------------------------ *)
(** ** C92. [framed] (FramingSpec) is RFC 7230's rule. *)
Definition chunked_fields : list field := map plain_field [(bs "Host", bs "h"); (bs "Transfer-Encoding", bs "chunked")].
Definition chunked_text : str := bs "5" ++ CRLF ++ bs "hello" ++ CRLF ++ bs "0" ++ CRLF ++ CRLF.
Definition host_fields : list field := [plain_field (bs "Host", bs "h")].
Definition bad_length_fields : list field := map plain_field [(bs "Host", bs "h"); (bs "Content-Length", bs "5x")].
Lemma chunked_hello : chunked chunked_text (bs "hello").
Proof.
  exact (one_chunk (bs "5") (bs "hello") (bs "0" ++ CRLF ++ CRLF) [] ltac:(discriminate)
    (hex_one (bs "01234") (n2b 53) (bs "6789abcdef") eq_refl) last_chunk).
Qed.
(** False: chunked bodies are not decoded; without Content-Length the following request is taken for a
    body; an invalid Content-Length is taken for none. *)
Theorem C92_framing_refuted :
  (framed chunked_fields chunked_text (bs "hello") [] /\
   exists r, request_parse (demo_env (fun m => m)) [Data (request_head (bs "POST") (bs "/") chunked_fields ++ chunked_text)] = Ok (Some r) /\
     into_bytes sz1 (rq_body r) = Ok chunked_text) /\
  (framed host_fields small_get [] small_get /\
   exists r, request_parse (demo_env (fun m => m)) [Data (request_head (bs "GET") (bs "/") host_fields ++ small_get)] = Ok (Some r) /\
     into_bytes sz1 (rq_body r) = Ok small_get) /\
  (invalid_length bad_length_fields /\
   exists r, request_parse (demo_env (fun m => m)) [Data (request_head (bs "POST") (bs "/") bad_length_fields ++ bs "hello!")] = Ok (Some r) /\
     into_bytes sz1 (rq_body r) = Ok (bs "hello!")).
Proof.
  split; [|split].
  - split; [|eexists; split; vm_compute; reflexivity].
    rewrite <- (app_nil_r chunked_text). apply by_chunks with (plain_field (bs "Transfer-Encoding", bs "chunked"));
      [right; left; reflexivity|vm_compute; reflexivity|vm_compute; reflexivity|exact chunked_hello].
  - split; [|eexists; split; vm_compute; reflexivity].
    apply no_body; intros H; inversion H as [? ? E|? ? H']; subst; try (vm_compute in E; discriminate E); inversion H'.
  - split; [|eexists; split; vm_compute; reflexivity].
    right. left. split; [vm_compute; reflexivity|]. intros H. cbn in H. inversion H as [|? ? _ H']; subst. inversion H' as [|? ? E _]; subst.
    destruct E as [_ E]. vm_compute in E. apply E. reflexivity.
Qed.
Print Assumptions C92_framing_refuted.
(** What holds: with one spelling of Content-Length, and no Transfer-Encoding, the body is the one of the
    RFC, however the bytes are cut into segments and whatever follows; and without both, on a connection
    that carries nothing else, it is empty as well. *)
Theorem C92_framing_partial : forall U (ev : env U) s meth target fs bytes tail content rest r,
  sent ev s meth target fs bytes tail -> framed fs bytes content rest -> request_parse ev s = Ok (Some r) ->
  ~ has_field (bs "transfer-encoding") fs ->
  (has_field (bs "content-length") fs \/ rest = [] /\ tail = []) ->
  (N.of_nat (length content) < 2 ^ usize_bits ev)%N -> spelled_once (bs "content-length") fs ->
  forall sz, positive sz -> into_bytes sz (rq_body r) = Ok content.
Proof.
  intros U ev s meth target fs bytes tail content rest r Hs Hf E Hno Hcase Hmax Hone sz Hsz.
  destruct Hf as [f coded content rest Hin Hn _ _|ds content rest _ Hcl Hall Hne Hd Hv|rest _ Hcl].
  - destruct Hno. apply Exists_exists. eauto.
  - apply Exists_exists in Hcl as (f & Hin & Hn).
    destruct (last_field_exists f fs Hin) as (v & Hl).
    assert (v = ds) as ->.
    { destruct Hl as (fs1 & g & fs2 & -> & Hg & <- & _). rewrite Forall_forall in Hall. apply Hall; [apply in_or_app; right; now left|]. congruence. }
    destruct (body_limited ev s meth target fs (content ++ rest) tail (f_name f) ds (N.of_nat (length content)) r Hs E Hl Hn Hone) as [B _].
    { apply numeral_iff. exists ds. split; [now left|]. split; [exact Hne|]. split; [exact Hd|]. split; [now symmetry|exact Hmax]. }
    rewrite B; [|right; rewrite app_length; lia|exact Hsz].
    now rewrite Nnat.Nat2N.id, firstn_app, Nat.sub_diag, firstn_all, app_nil_r.
  - destruct Hcase as [H|[-> ->]]; [contradiction|].
    apply (body_unlimited ev s meth target fs [] [] r Hs E); auto.
    apply Forall_forall. intros f Hin Hn. apply Hcl. apply Exists_exists. eauto.
Qed.
Print Assumptions C92_framing_partial.
Lemma framed_declared {U} (ev : env U) s meth target fs bytes tail content rest r :
  sent ev s meth target fs bytes tail -> framed fs bytes content rest -> request_parse ev s = Ok (Some r) ->
  ~ has_field (bs "transfer-encoding") fs -> (N.of_nat (length content) < 2 ^ usize_bits ev)%N -> spelled_once (bs "content-length") fs ->
  match b_length (rq_body r) with Some n => n | None => 0%N end = N.of_nat (length content).
Proof.
  intros Hs Hf E Hno Hmax Hone.
  destruct Hf as [f coded content rest Hin Hn _ _|ds content rest _ Hcl Hall Hne Hd Hv|rest _ Hcl].
  - destruct Hno. apply Exists_exists. eauto.
  - apply Exists_exists in Hcl as (f & Hin & Hn).
    destruct (last_field_exists f fs Hin) as (v & Hl).
    assert (v = ds) as ->.
    { destruct Hl as (fs1 & g & fs2 & -> & Hg & <- & _). rewrite Forall_forall in Hall. apply Hall; [apply in_or_app; right; now left|]. congruence. }
    rewrite (body_declared ev s meth target fs (content ++ rest) tail (f_name f) ds r Hs E Hl Hn Hone).
    assert (parse_uint (usize_max (usize_bits ev)) ds = Some (N.of_nat (length content))) as ->; [|reflexivity].
    apply numeral_iff. exists ds. split; [now left|]. split; [exact Hne|]. split; [exact Hd|]. split; [now symmetry|exact Hmax].
  - rewrite (body_undeclared ev s meth target fs rest tail r Hs E); [reflexivity|].
    apply Forall_forall. intros f Hin Hn. apply Hcl. apply Exists_exists. eauto.
Qed.
Example C92_example : framed demo_fields (bs "hello" ++ bs "GET") (bs "hello") (bs "GET") /\
  ~ has_field (bs "transfer-encoding") demo_fields /\ spelled_once (bs "content-length") demo_fields.
Proof.
  assert (~ has_field (bs "transfer-encoding") demo_fields) as H.
  { intros H. apply Exists_exists in H as (f & Hin & E). cbn in Hin. destruct Hin as [<-|[<-|[<-|[]]]]; vm_compute in E; discriminate E. }
  split; [|split; [exact H|apply demo_spelled]]. apply by_length with (bs "5").
  - exact H.
  - right. left. reflexivity.
  - repeat (constructor; [vm_compute; try discriminate; reflexivity|]). constructor.
  - discriminate.
  - constructor; [vm_compute; split; discriminate|constructor].
  - reflexivity.
Qed.

(* ------------------------------------------------------------------ *)
(** ** C93 *)
(** False: the size of a request head is not limited. *)
Definition long_fields (n : nat) : list field := map plain_field [(bs "Host", bs "h"); (bs "X", repeat x61 n)].
Theorem C93_head_size_refuted : forall limit, exists head r,
  limit < length head /\ complete_head head /\ request_parse (demo_env (fun m => m)) [Data head] = Ok (Some r).
Proof.
  intros limit. set (fs := long_fields limit).
  assert (Forall (fun kv => field_ok (plain_field kv) /\ is_utf8 (snd kv)) [(bs "Host", bs "h"); (bs "X", repeat x61 limit)]) as F.
  { apply Forall_cons; [apply field_lit; vm_compute; reflexivity|]. apply Forall_cons; [|constructor].
    apply field_lit. unfold field_litb. rewrite andb_true_iff. split; [vm_compute; reflexivity|]. cbn [snd].
    apply forallb_forall. intros b Hb. apply repeat_spec in Hb as ->. reflexivity. }
  assert (request_head_ok (bs "GET") (bs "/") fs) as Hok.
  { split; [discriminate|]. split; [apply tchars_lit; vm_compute; reflexivity|]. split; [discriminate|].
    split; [apply targets_lit; vm_compute; reflexivity|]. split; [|cbn; lia]. apply Forall_map. eapply Forall_impl; [|exact F]. now intros kv [H _]. }
  assert (sent (demo_env (fun m => m)) [Data (request_head (bs "GET") (bs "/") fs)] (bs "GET") (bs "/") fs [] []) as Hs.
  { split; [apply demo_ok|]. split; [exact httparse_reads_requests|]. split; [exact Hok|].
    apply dv_data; [discriminate|]. constructor. }
  destruct (url_from_target _ _ _ _ _ _ _ (bs "Host") (bs "h") Hs) as (A & _ & _).
  - apply Forall_map. eapply Forall_impl; [|exact F]. now intros kv [_ H].
  - exists [], (plain_field (bs "Host", bs "h")), [plain_field (bs "X", repeat x61 limit)]. repeat split. constructor; [discriminate|constructor].
  - reflexivity.
  - intros f g [<-|[<-|[]]] [<-|[<-|[]]]; cbn; intros E1 E2; try reflexivity; try discriminate E1; try discriminate E2.
  - destruct (A _ (bs "http://h/") (origin_form (bs "h") (bs "GET") (bs "/") [] eq_refl) eq_refl) as (r & E & _).
    eexists. exists r. split; [|split; [apply request_head_complete; exact Hok|exact E]].
    unfold request_head, fs, long_fields. cbn [map flat_map]. unfold field_text at 2. cbn [plain_field f_name f_pre f_value f_post fst snd].
    rewrite !app_length, repeat_length. cbn. lia.
Qed.
Print Assumptions C93_head_size_refuted.
(** What holds: there are never more header entries than httparse was given room for (request/mod.rs:51). *)
Theorem C93_head_fields_partial : forall U (ev : env U) s r, env_ok ev ->
  (forall head, length (hq_headers (parse_head_req ev head)) <= 20) ->
  request_parse ev s = Ok (Some r) -> length (rq_headers r) <= 20.
Proof.
  assert (forall hs (m : hmap str), length (extend m hs) <= length m + length hs) as Hx.
  { intros hs. unfold extend. induction hs as [|[k v] hs IH]; intros m; cbn [fold_left length]; [lia|].
    etransitivity; [apply IH|]. cbn [fst snd]. pose proof (length_insert k v m). lia. }
  intros U ev s r Hev H. unfold request_parse. destruct (read_head _) as [[[h|]|e| |] rd]; try discriminate.
  unfold request_of_head. destruct (hq_status _); try discriminate;
    (destruct (hq_method _); [|discriminate]; destruct (insert_headers _ _) as [m|] eqn:E; [|discriminate];
     destruct (find_header (bs "host") _); [|discriminate]; destruct (hq_path _); [|discriminate];
     destruct (request_url _ _ _ _); [|discriminate]; intros [= <-]; cbn [rq_headers];
     apply insert_headers_some in E as [-> _];
     rewrite <- (Permutation_length (Hev _ (extend_wf [] _ hm_wf_nil))); etransitivity; [apply Hx|]; cbn; apply H).
Qed.
Print Assumptions C93_head_fields_partial.
Example C93_example : forall head, length (hq_headers (parse_head_req (demo_env (fun m => m)) head)) <= 20.
Proof.
  assert (forall n s, length (fst (headers_at n s)) <= n) as H.
  { intros n. induction n as [|n IH]; intros s; cbn [headers_at]; (destruct (newline s); [cbn; lia|]); [cbn; lia|].
    destruct (header_at s) as [[[k v] r]|]; [|cbn; lia]. specialize (IH r). destruct (headers_at n r) as [hs ok]. cbn [fst length] in *. lia. }
  intros head. cbn [parse_head_req demo_env]. unfold httparse_request.
  destruct (skip_empty _ _) as [|c s1]; [cbn; lia|]. destruct (word vis _) as [[m s2]|]; [|cbn; lia].
  destruct (word vis s2) as [[t s3]|]; [|cbn; lia].
  assert (forall r, length (hq_headers (let '(hs, ok) := headers_at 20 r in HpReq (if ok then HpComplete else HpError) (Some m) (Some t) (slots_left hs ok))) <= 20) as H'.
  { intros r. specialize (H 20 r). destruct (headers_at 20 r) as [hs ok]. cbn [fst hq_headers] in *. unfold slots_left. destruct ok; [exact H|].
    rewrite app_length, repeat_length. lia. }
  destruct (strip_prefix (bs "HTTP/1.1") s3) as [r|]; [|destruct (strip_prefix (bs "HTTP/1.0") s3) as [r|]; [|cbn; lia]];
    (destruct (newline r) as [r'|]; [apply H'|cbn; lia]).
Qed.

(* ------------------------------------------------------------------ *)
(** ** C94. Forwarding: a message is parsed and written again. *)
(** False: of two fields with the same name (here Set-Cookie) only the last survives. *)
Definition cookies : list field := map plain_field [(bs "Set-Cookie", bs "a=1"); (bs "Set-Cookie", bs "b=2")].
Theorem C94_forward_refuted : exists r wire,
  response_parse (demo_env (fun m => m)) [Data (response_head 200 (bs "OK") cookies)] = Ok (Some r) /\
  encode sz1 r None = (wire, Ok tt) /\ wire = response_head 200 (bs "OK") [plain_field (bs "Set-Cookie", bs "b=2")].
Proof. do 2 eexists. split; [vm_compute; reflexivity|]. split; vm_compute; reflexivity. Qed.
Print Assumptions C94_forward_refuted.

Lemma distinct_pairs fs : NoDup (map f_name fs) -> extend [] (map field_pair fs) = map field_pair fs.
Proof. intros H. apply extend_nodup. now rewrite map_map. Qed.
(** What holds: with distinct field names, a target that the URL library gives back as the path (no
    query), a method that is not a differently spelled GET or POST, the message written is the one read,
    up to the order of the fields and the white space around their values. *)
Theorem C94_forward_partial : forall U (ev : env U) s meth target fs content k host u,
  sent ev s meth target fs content [] -> all_utf8 fs -> NoDup (map f_name fs) ->
  last_field k host fs -> to_lower k = bs "host" -> spelled_once (bs "host") fs ->
  (exists t, target = bs "/" ++ t) -> url_parse ev (bs "http://" ++ host ++ target) = Some u -> url_path ev u = target ->
  (to_lower meth = bs "get" -> meth = bs "GET") -> (to_lower meth = bs "post" -> meth = bs "POST") ->
  Forall (fun f => to_lower (f_name f) = bs "content-length" ->
    numeral (usize_bits ev) (f_value f) (N.of_nat (length content))) fs ->
  exists r, request_parse ev s = Ok (Some r) /\
    forall sz, positive sz -> exists fields, Permutation fields (map field_pair fs) /\
      request_write ev sz r None = (request_head meth target (map plain_field fields) ++ content, Ok tt).
Proof.
  intros U ev s meth target fs content k host u Hs Hu Hnd Hl Hk Hone [t Ht] Hp Hpath Hget Hpost Hcl.
  destruct (sent_headers ev s meth target fs content [] Hs Hu) as (rd & Hrep & Hcap & E).
  cbn zeta in E. rewrite (sent_find ev s meth target fs content [] Hs (bs "host") k host eq_refl Hl Hk Hone) in E.
  assert (request_url ev host meth target = Some u) as Eu.
  { destruct (request_url_addressed ev host meth target) as [Ha _].
    rewrite (Ha (bs "http://" ++ host ++ target)); [exact Hp|]. apply origin_form with t. exact Ht. }
  rewrite Eu in E. eexists. split; [exact E|]. intros sz Hsz. rewrite (distinct_pairs fs Hnd) in *.
  destruct Hs as (Hev & _ & Hok & _).
  assert (hm_wf (map field_pair fs)) as W by (unfold hm_wf, keys; now rewrite map_map).
  pose proof (Hev _ W) as P. exists (iter_order ev (map field_pair fs)). split; [now symmetry|].
  set (m := iter_order ev (map field_pair fs)) in *.
  set (r := Request m (method_from_str meth) (body_from_reader rd (parsed_length (usize_bits ev) (find_header (bs "content-length") m))) u).
  assert (into_bytes sz (rq_body r) = Ok content) as Hb.
  { unfold r. cbn [rq_body]. destruct (find_header (bs "content-length") m) as [v|] eqn:Ef.
    - apply find_header_some in Ef as (k' & Hin & Hk'). symmetry in P. apply (Permutation_in _ P) in Hin.
      apply in_map_iff in Hin as (f & Ef & Hin). unfold field_pair in Ef. injection Ef as <- <-.
      rewrite Forall_forall in Hcl. cbn [parsed_length]. rewrite (proj2 (numeral_iff _ _ _) (Hcl f Hin Hk')).
      rewrite (body_content rd _ content [] sz Hrep Hcap Hsz); [|now left]. now rewrite Nnat.Nat2N.id, firstn_all.
    - cbn [parsed_length]. now rewrite (body_content rd None content [] sz Hrep Hcap Hsz); [|left]. }
  destruct (drain_of_into sz _ _ Hb) as (chunks & b' & Ed & Ec).
  fold r. rewrite (request_write_exact ev sz r chunks b' Ed). f_equal. rewrite Ec. unfold r. cbn [rq_method rq_url rq_headers].
  rewrite header_lines_fields, Hpath. unfold request_head. rewrite <- !app_assoc. f_equal.
  unfold method_from_str. destruct (str_eqb (to_lower meth) (bs "get")) eqn:E1.
  - apply str_eqb_eq in E1. now rewrite (Hget E1).
  - destruct (str_eqb (to_lower meth) (bs "post")) eqn:E2; [|reflexivity]. apply str_eqb_eq in E2. now rewrite (Hpost E2).
Qed.
Print Assumptions C94_forward_partial.
Theorem C94_forward_response_partial : forall U (ev : env U) s code reason fs content,
  env_ok ev -> reads_responses (parse_head_resp ev) -> response_head_ok code reason fs -> all_utf8 fs -> NoDup (map f_name fs) ->
  Forall (fun f => to_lower (f_name f) = bs "content-type" -> forall n, ~ numeral (usize_bits ev) (f_value f) n) fs ->
  delivers true s (response_head code reason fs ++ content) [] ->
  exists r, response_parse ev s = Ok (Some r) /\
    forall sz, positive sz -> exists fields, Permutation fields (map field_pair fs) /\
      encode sz r None = (response_head code reason (map plain_field fields) ++ content, Ok tt).
Proof.
  intros U ev s code reason fs content Hev Hp Hok Hu Hnd Hct Hd.
  destruct (response_sent ev s code reason fs content [] Hev Hp Hok Hu Hd) as (rd & Hrep & Hcap & E).
  eexists. split; [exact E|]. intros sz Hsz. rewrite (distinct_pairs fs Hnd) in *.
  assert (hm_wf (map field_pair fs)) as W by (unfold hm_wf, keys; now rewrite map_map).
  pose proof (Hev _ W) as P. set (m := iter_order ev (map field_pair fs)) in *.
  set (r := Response m (body_from_reader rd (parsed_length (usize_bits ev) (find_header (bs "content-type") m))) code reason).
  assert (into_bytes sz (rs_body r) = Ok content) as Hb.
  { unfold r. cbn [rs_body]. assert (parsed_length (usize_bits ev) (find_header (bs "content-type") m) = None) as ->.
    - destruct (find_header (bs "content-type") m) as [v|] eqn:Ef; [|reflexivity].
      apply find_header_some in Ef as (k' & Hin & Hk'). symmetry in P. apply (Permutation_in _ P) in Hin.
      apply in_map_iff in Hin as (f & Ef & Hin). unfold field_pair in Ef. injection Ef as <- <-.
      rewrite Forall_forall in Hct. cbn [parsed_length]. now apply numeral_none, (Hct f Hin).
    - now rewrite (body_content rd None content [] sz Hrep Hcap Hsz); [|left]. }
  destruct (drain_of_into sz _ _ Hb) as (chunks & b' & Ed & Ec).
  exists (sort_headers m). split; [etransitivity; [symmetry; apply sort_headers_perm|now symmetry]|].
  fold r. rewrite (encode_exact sz r chunks b' Ed). f_equal. rewrite Ec. unfold r. cbn [rs_status rs_reason rs_headers].
  rewrite header_lines_fields. unfold response_head. rewrite <- !app_assoc, dec_code by apply Hok. reflexivity.
Qed.
Print Assumptions C94_forward_response_partial.
Example C94_example : NoDup (map f_name demo_fields) /\ url_path (demo_env (@rev _)) (bs "http://example.org/a/b") = bs "/a/b" /\
  exists r, request_parse (demo_env (@rev _)) [Data (request_head (bs "POST") (bs "/a/b") demo_fields ++ bs "hello")] = Ok (Some r) /\
    request_write (demo_env (@rev _)) sz1 r None = (request_head (bs "POST") (bs "/a/b") (rev demo_fields) ++ bs "hello", Ok tt).
Proof. split; [apply nodup_lit; vm_compute; reflexivity|]. split; [reflexivity|]. eexists. split; vm_compute; reflexivity. Qed.
