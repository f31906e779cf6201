(** Exact forms of HTTP properties that fail in general: C30, C33, C36, C89, C94. *)
From Coq Require Import Sorting.Sorted.
From Verif Require Import Base HMap Num Utf8 Io IoProofs HttpModel HttpSpec Httparse HttpProofs HttpProofs2 HttpProofs3 HttpProofs4 HttpLemmas HttpLemmas2 PropHttp PropHttp2.

(** ** C33, exactly: which methods survive being written and read. *)
Theorem C33_method_exactly : forall m, method_from_str (method_text m) = m <->
  match m with
  | Get | Post => True
  | Head => False
  | OtherMethod name => to_lower name <> bs "get" /\ to_lower name <> bs "post"
  end.
Proof.
  intros [| | |name]; [now vm_compute|now vm_compute| |].
  - split; [|contradiction]. intros H. exact (proj2 (proj2 C33_method_refuted) _ H).
  - cbn [method_text]. unfold method_from_str. destruct (str_eqb (to_lower name) (bs "get")) eqn:E1; [|destruct (str_eqb (to_lower name) (bs "post")) eqn:E2].
    + apply str_eqb_eq in E1. split; [discriminate|]. now intros [H _].
    + apply str_eqb_eq in E2. split; [discriminate|]. now intros [_ H].
    + split; [|reflexivity]. intros _. split; intros H; rewrite H in *; discriminate.
Qed.
Print Assumptions C33_method_exactly.
(** What a method token on the wire becomes. *)
Theorem C33_parsed_exactly : forall s m, method_from_str s = m <->
  (to_lower s = bs "get" /\ m = Get) \/ (to_lower s = bs "post" /\ m = Post) \/
  (to_lower s <> bs "get" /\ to_lower s <> bs "post" /\ m = OtherMethod s).
Proof.
  intros s m. unfold method_from_str. destruct (str_eqb (to_lower s) (bs "get")) eqn:E1; [|destruct (str_eqb (to_lower s) (bs "post")) eqn:E2].
  - apply str_eqb_eq in E1. split; [intros <-; auto|]. intros [[_ H]|[[H _]|[H _]]]; [auto|rewrite E1 in H; discriminate|contradiction].
  - apply str_eqb_eq in E2. split; [intros <-; auto|]. intros [[H _]|[[_ H]|[_ [H _]]]]; [rewrite E2 in H; discriminate|auto|contradiction].
  - assert (to_lower s <> bs "get") by (intros H; rewrite H in E1; discriminate).
    assert (to_lower s <> bs "post") by (intros H'; rewrite H' in E2; discriminate).
    split; [intros <-; auto|]. intros [[? _]|[[? _]|(_ & _ & ?)]]; try contradiction; auto.
Qed.
Print Assumptions C33_parsed_exactly.

(** ** C36, exactly. [cut_by name bits fs rest out]: [rest] is cut to the number in a field called [name] (in some
    spelling), if it is one and fits into [bits] bits. *)
Definition cut_by (name : str) (bits : N) (fs : list field) (rest out : str) : Prop :=
  (exists k v, last_field k v fs /\ to_lower k = name /\
     ((exists n, numeral bits v n /\ out = firstn (N.to_nat n) rest) \/ (forall n, ~ numeral bits v n) /\ out = rest)) \/
  (Forall (fun f => to_lower (f_name f) <> name) fs /\ out = rest).

Lemma find_cut {U} (ev : env U) name fs rd rest : env_ok ev -> to_lower name = name -> rep true rd rest [] -> 0 < br_cap rd ->
  exists out, cut_by name (usize_bits ev) fs rest out /\
  forall sz, positive sz -> into_bytes sz (body_from_reader rd
    (parsed_length (usize_bits ev) (find_header name (iter_order ev (extend [] (map field_pair fs)))))) = Ok out.
Proof.
  intros Hev Hname Hrep Hcap. set (m := extend [] (map field_pair fs)).
  assert (hm_wf m) as W by apply extend_wf, hm_wf_nil. pose proof (Hev m W) as P.
  assert (forall k v, In (k, v) (iter_order ev m) <-> last_field k v fs) as Hin.
  { intros k v. rewrite last_field_value, <- in_extend. split; intros H; (eapply Permutation_in; [|exact H]); [now symmetry|exact P]. }
  destruct (find_header name (iter_order ev m)) as [v|] eqn:Ef; cbn [parsed_length].
  - apply find_header_some in Ef as (k & Hk & Hl). apply Hin in Hk. rewrite Hname in Hl.
    eexists. split; [left; exists k, v; split; [exact Hk|]; split; [exact Hl|]|].
    2: { intros sz Hsz. rewrite (body_content rd _ rest [] sz Hrep Hcap Hsz); [reflexivity|now left]. }
    destruct (parse_uint (usize_max (usize_bits ev)) v) as [n|] eqn:En; [left; exists n; split; [now apply numeral_iff|reflexivity]|right; split; [now apply numeral_none|reflexivity]].
  - exists rest. split; [right; split; [|reflexivity]|].
    + apply Forall_forall. intros f Hf Hn. destruct (last_field_exists f fs Hf) as (v & Hv). apply Hin in Hv.
      pose proof (proj1 (find_header_none _ _) Ef _ _ Hv) as K. congruence.
    + intros sz Hsz. now rewrite (body_content rd None rest [] sz Hrep Hcap Hsz); [|left].
Qed.

(** The body of a response is the rest of the connection, cut to the number in Content-Type if there is one;
    Content-Length has no influence. *)
Theorem C36_body_exactly : forall U (ev : env U) s code reason fs rest,
  env_ok ev -> reads_responses (parse_head_resp ev) -> response_head_ok code reason fs -> all_utf8 fs ->
  delivers true s (response_head code reason fs ++ rest) [] ->
  exists r out, response_parse ev s = Ok (Some r) /\
    cut_by (bs "content-type") (usize_bits ev) fs rest out /\
    forall sz, positive sz -> into_bytes sz (rs_body r) = Ok out.
Proof.
  intros U ev s code reason fs rest Hev Hp Hok Hu Hd.
  destruct (response_sent ev s code reason fs rest [] Hev Hp Hok Hu Hd) as (rd & Hrep & Hcap & E).
  destruct (find_cut ev (bs "content-type") fs rd rest Hev eq_refl Hrep Hcap) as (out & Hc & Hb).
  eexists. exists out. split; [exact E|]. split; [exact Hc|]. exact Hb.
Qed.
Print Assumptions C36_body_exactly.
(** The same for requests, where Content-Length is the field that counts. *)
Theorem C29_body_exactly : forall U (ev : env U) s meth target fs rest r,
  sent ev s meth target fs rest [] -> all_utf8 fs -> request_parse ev s = Ok (Some r) ->
  exists out, cut_by (bs "content-length") (usize_bits ev) fs rest out /\
    forall sz, positive sz -> into_bytes sz (rq_body r) = Ok out.
Proof.
  intros U ev s meth target fs rest r Hs Hu E.
  destruct (sent_headers ev s meth target fs rest [] Hs Hu) as (rd & Hrep & Hcap & E').
  destruct (find_cut ev (bs "content-length") fs rd rest (proj1 Hs) eq_refl Hrep Hcap) as (out & Hc & Hb).
  rewrite E in E'. cbn zeta in E'. destruct (find_header (bs "host") _); [|discriminate E']. destruct (request_url _ _ _ _); [|discriminate E'].
  injection E' as ->. exists out. split; [exact Hc|exact Hb].
Qed.
Print Assumptions C29_body_exactly.
Example C36_exact_example : exists r out,
  response_parse (demo_env (@rev _)) [Data (response_head 200 (bs "OK") (map plain_field [(bs "CONTENT-type", bs "2"); (bs "Content-Length", bs "4")]) ++ bs "body")] = Ok (Some r) /\
  cut_by (bs "content-type") 32 (map plain_field [(bs "CONTENT-type", bs "2"); (bs "Content-Length", bs "4")]) (bs "body") out /\
  out = bs "bo" /\ into_bytes sz1 (rs_body r) = Ok out.
Proof.
  do 2 eexists. split; [vm_compute; reflexivity|]. split; [|split; [reflexivity|vm_compute; reflexivity]].
  left. exists (bs "CONTENT-type"), (bs "2"). split; [apply last_field_value; vm_compute; reflexivity|]. split; [reflexivity|]. left. exists 2%N. split; [apply numeral_iff; vm_compute; reflexivity|]. vm_compute. reflexivity.
Qed.

(** ** C89, exactly: a Content-Length that stays behind when the body is replaced decides how much of the new body
    (and of the message behind it) the receiver takes. *)
Theorem C89_stale_length : forall U (ev : env U) sz (r : request U) b content host u' v n,
  env_ok ev -> reads_requests (parse_head_req ev) -> plain_method (rq_method r) ->
  (exists t, url_path ev (rq_url r) = bs "/" ++ t) -> Forall target_char (url_path ev (rq_url r)) ->
  writable_headers (rq_headers r) -> length (rq_headers r) <= 19 ->
  only_header (bs "host") host (rq_headers r) ->
  only_header (bs "content-length") v (rq_headers r) -> numeral (usize_bits ev) v n ->
  url_parse ev (bs "http://" ++ host ++ url_path ev (rq_url r)) = Some u' ->
  field_ok (plain_field (bs "Content-Type", mime_format (b_mime b))) -> is_utf8 (mime_format (b_mime b)) ->
  into_bytes sz b = Ok content ->
  exists old r1 wire, request_replace_body r b = (old, r1) /\ request_write ev sz r1 None = (wire, Ok tt) /\
    forall s rest tail, delivers true s (wire ++ rest) tail -> tail = [] \/ (n <= N.of_nat (length (content ++ rest)))%N ->
    exists r', request_parse ev s = Ok (Some r') /\
      forall sz', positive sz' -> into_bytes sz' (rq_body r') = Ok (firstn (N.to_nat n) (content ++ rest)).
Proof.
  intros U ev sz r b content host u' v n Hev Hp Hm (t & Hpath) Htc Hw Hlen Hhost Hcl Hn Hurl Hf Hu Hb. apply numeral_iff in Hn.
  pose proof Hw as (W0 & _ & _).
  set (r1 := Request (insert (bs "Content-Type") (mime_format (b_mime b)) (rq_headers r)) (rq_method r) b (rq_url r)).
  destruct (drain_of_into sz _ _ Hb) as (chunks & b' & Ed & Ec).
  exists (rq_body r), r1. eexists. split; [reflexivity|]. split; [apply (request_write_exact ev sz r1 chunks b' Ed)|].
  intros s rest tail Hd Hend.
  assert (writable_headers (rq_headers r1)) as (W & L & F) by now apply writable_insert.
  assert (only_header (bs "host") host (rq_headers r1)) as Hhost1 by (apply only_insert; auto; discriminate).
  assert (only_header (bs "content-length") v (rq_headers r1)) as Hcl1 by (apply only_insert; auto; discriminate).
  pose proof (plain_method_text _ Hm) as (Mne & Mtc & Mrt).
  set (fs := map plain_field (rq_headers r1)).
  assert (request_head_ok (method_text (rq_method r)) (url_path ev (rq_url r)) fs) as Hok.
  { split; [exact Mne|]. split; [exact Mtc|]. split; [rewrite Hpath; discriminate|]. split; [exact Htc|].
    split; [|unfold fs; now rewrite map_length]. apply Forall_map. eapply Forall_impl; [|exact F]. now intros kv [H _]. }
  assert (delivers true s (request_head (method_text (rq_method r)) (url_path ev (rq_url r)) fs ++ content ++ rest) tail) as Hd'.
  { rewrite <- Ec. revert Hd. rewrite header_lines_fields. fold fs. unfold request_head. cbn [rq_method rq_url r1]. now rewrite <- !app_assoc. }
  assert (sent ev s (method_text (rq_method r)) (url_path ev (rq_url r)) fs (content ++ rest) tail) as Hs by (repeat split; auto; apply Hok).
  assert (all_utf8 fs) as Hu8 by (apply Forall_map; eapply Forall_impl; [|exact F]; intros [? ?] [_ H]; exact H).
  destruct (sent_headers ev s _ _ fs _ tail Hs Hu8) as (rd & Hrep & Hcap & ->).
  assert (extend [] (map field_pair fs) = rq_headers r1) as -> by (unfold fs; rewrite plain_pairs; apply extend_nodup; exact W).
  pose proof (Hev _ W) as P. rewrite (find_only (bs "host") host (rq_headers r1) _ eq_refl Hhost1 P).
  assert (request_url ev host (method_text (rq_method r)) (url_path ev (rq_url r)) = Some u') as ->.
  { destruct (request_url_addressed ev host (method_text (rq_method r)) (url_path ev (rq_url r))) as [Ha _].
    rewrite (Ha (bs "http://" ++ host ++ url_path ev (rq_url r))); [exact Hurl|]. apply origin_form with t. exact Hpath. }
  eexists. split; [reflexivity|]. cbn [rq_body]. intros sz' Hsz'.
  rewrite (find_only _ v _ _ eq_refl Hcl1 P). cbn [parsed_length]. rewrite Hn.
  rewrite (body_content rd _ (content ++ rest) tail sz'); auto. destruct Hend as [->|Hend]; [now left|right; eauto].
Qed.
Print Assumptions C89_stale_length.

(** ** C94, exactly: what a forwarded message looks like. Of the fields of one spelling the last survives; the target
    becomes the path of the URL; the body is cut by the length field the parser looks at. *)
Theorem C94_forward_exactly : forall U (ev : env U) s meth target fs rest r,
  sent ev s meth target fs rest [] -> all_utf8 fs -> request_parse ev s = Ok (Some r) ->
  exists out, cut_by (bs "content-length") (usize_bits ev) fs rest out /\
  forall sz, positive sz -> exists fields, NoDup (map fst fields) /\ (forall k v, In (k, v) fields <-> last_field k v fs) /\
    request_write ev sz r None =
    (request_head (method_text (method_from_str meth)) (url_path ev (rq_url r)) (map plain_field fields) ++ out, Ok tt).
Proof.
  intros U ev s meth target fs rest r Hs Hu E.
  destruct (C29_body_exactly U ev s meth target fs rest r Hs Hu E) as (out & Hc & Hb). exists out. split; [exact Hc|]. intros sz Hsz.
  destruct (sent_headers ev s meth target fs rest [] Hs Hu) as (rd & Hrep & Hcap & E').
  destruct (sent_wf ev s meth target fs rest [] Hs) as [W Hin].
  exists (iter_order ev (extend [] (map field_pair fs))). split; [exact W|]. split; [exact Hin|].
  destruct (drain_of_into sz _ _ (Hb sz Hsz)) as (chunks & b' & Ed & Ec).
  rewrite (request_write_exact ev sz r chunks b' Ed), Ec.
  rewrite E in E'. cbn zeta in E'. destruct (find_header (bs "host") _); [|discriminate E']. destruct (request_url _ _ _ _); [|discriminate E'].
  injection E' as ->. cbn [rq_method rq_url rq_headers]. rewrite header_lines_fields. unfold request_head. now rewrite <- !app_assoc.
Qed.
Print Assumptions C94_forward_exactly.
Theorem C94_forward_response_exactly : forall U (ev : env U) s code reason fs rest,
  env_ok ev -> reads_responses (parse_head_resp ev) -> response_head_ok code reason fs -> all_utf8 fs ->
  delivers true s (response_head code reason fs ++ rest) [] ->
  exists r out fields, response_parse ev s = Ok (Some r) /\ cut_by (bs "content-type") (usize_bits ev) fs rest out /\
  NoDup (map fst fields) /\ (forall k v, In (k, v) fields <-> last_field k v fs) /\
  forall sz, positive sz -> encode sz r None = (response_head code reason (map plain_field fields) ++ out, Ok tt).
Proof.
  intros U ev s code reason fs rest Hev Hp Hok Hu Hd.
  destruct (response_sent ev s code reason fs rest [] Hev Hp Hok Hu Hd) as (rd & Hrep & Hcap & E).
  destruct (find_cut ev (bs "content-type") fs rd rest Hev eq_refl Hrep Hcap) as (out & Hc & Hb).
  set (m := iter_order ev (extend [] (map field_pair fs))) in *.
  assert (hm_wf (extend [] (map field_pair fs))) as W by apply extend_wf, hm_wf_nil. pose proof (Hev _ W) as P. fold m in P.
  assert (Permutation (sort_headers m) (extend [] (map field_pair fs))) as P' by (etransitivity; [symmetry; apply sort_headers_perm|now symmetry]).
  eexists. exists out, (sort_headers m). split; [exact E|]. split; [exact Hc|]. split; [symmetry in P'; exact (perm_wf _ _ P' W)|].
  split.
  { intros k v. rewrite last_field_value, <- in_extend. split; intros H; (eapply Permutation_in; [|exact H]); [exact P'|now symmetry]. }
  intros sz Hsz. destruct (drain_of_into sz _ _ (Hb sz Hsz)) as (chunks & b' & Ed & Ec).
  match goal with |- encode sz ?R None = _ => rewrite (encode_exact sz R chunks b' Ed), Ec end. cbn [rs_status rs_reason rs_headers]. f_equal.
  rewrite header_lines_fields. unfold response_head. rewrite <- !app_assoc, dec_code by apply Hok. reflexivity.
Qed.
Print Assumptions C94_forward_response_exactly.

(** ** C30, in general: whenever two spellings of Host (or of Content-Length) disagree, there are two hash-map orders
    for which the same bytes are two different requests. *)
Definition order_first (k : str) (m : hmap str) : hmap str :=
  match get k m with Some v => (k, v) :: remove k m | None => m end.
Definition with_order {U} (o : hmap str -> hmap str) (ev : env U) : env U :=
  Env (parse_head_req ev) (parse_head_resp ev) (url_parse ev) (url_path ev) (url_segments ev) o (usize_bits ev) (max_string ev).
Lemma order_first_perm k m : hm_wf m -> Permutation m (order_first k m).
Proof.
  intros W. unfold order_first. destruct (get k m) as [v|] eqn:E; [|reflexivity].
  assert (get k (remove k m) = None) as Hn by (rewrite get_remove, str_eqb_refl; reflexivity).
  apply equiv_perm; [exact W| |].
  - unfold hm_wf, keys. cbn [map fst]. constructor; [|now apply remove_wf]. now apply get_none_iff.
  - intros k'. cbn [get]. destruct (str_eqb k' k) eqn:Ek.
    + apply str_eqb_eq in Ek as ->. now rewrite ?str_eqb_refl, E.
    + rewrite get_remove, Ek. destruct (str_eqb k k') eqn:Ek'; [|reflexivity]. apply str_eqb_eq in Ek' as ->. now rewrite str_eqb_refl in Ek.
Qed.
Lemma order_first_find k v m name : hm_wf m -> In (k, v) m -> to_lower k = to_lower name -> find_header name (order_first k m) = Some v.
Proof.
  intros W Hin Hk. unfold order_first. rewrite (in_get k v m W Hin). unfold find_header. cbn [find fst].
  assert (eq_ignore_case k name = true) as -> by (unfold eq_ignore_case; now rewrite Hk, str_eqb_refl). reflexivity.
Qed.
Theorem C30_host_by_chance : forall U (ev : env U) s meth target fs rest tail k1 h1 u1 k2 h2 u2,
  sent ev s meth target fs rest tail -> all_utf8 fs -> (exists t, target = bs "/" ++ t) ->
  last_field k1 h1 fs -> to_lower k1 = bs "host" -> url_parse ev (bs "http://" ++ h1 ++ target) = Some u1 ->
  last_field k2 h2 fs -> to_lower k2 = bs "host" -> url_parse ev (bs "http://" ++ h2 ++ target) = Some u2 ->
  exists ev1 ev2 r1 r2, same_but_order ev ev1 /\ same_but_order ev ev2 /\ env_ok ev1 /\ env_ok ev2 /\
    request_parse ev1 s = Ok (Some r1) /\ rq_url r1 = u1 /\ request_parse ev2 s = Ok (Some r2) /\ rq_url r2 = u2.
Proof.
  intros U ev s meth target fs rest tail k1 h1 u1 k2 h2 u2 Hs Hu (t & Ht) Hl1 Hk1 Hu1 Hl2 Hk2 Hu2.
  assert (forall k h u, last_field k h fs -> to_lower k = bs "host" -> url_parse ev (bs "http://" ++ h ++ target) = Some u ->
    exists r, env_ok (with_order (order_first k) ev) /\ request_parse (with_order (order_first k) ev) s = Ok (Some r) /\ rq_url r = u) as G.
  { intros k h u Hl Hk Hurl. assert (env_ok (with_order (order_first k) ev)) as Ok1 by (intros m W; apply order_first_perm; exact W).
    assert (sent (with_order (order_first k) ev) s meth target fs rest tail) as Hs1.
    { destruct Hs as (_ & Hp & Hok & Hd). repeat split; auto; apply Hok. }
    destruct (sent_headers _ s meth target fs rest tail Hs1 Hu) as (rd & _ & _ & E). cbn zeta in E. cbn [with_order iter_order url_parse] in E.
    assert (hm_wf (extend [] (map field_pair fs))) as W by apply extend_wf, hm_wf_nil.
    rewrite (order_first_find k h _ (bs "host") W) in E; [|apply in_extend; now apply last_field_value|exact Hk].
    assert (request_url (with_order (order_first k) ev) h meth target = Some u) as Eu.
    { destruct (request_url_addressed (with_order (order_first k) ev) h meth target) as [Ha _].
      rewrite (Ha (bs "http://" ++ h ++ target)); [exact Hurl|]. apply origin_form with t. exact Ht. }
    rewrite Eu in E. eexists. split; [exact Ok1|]. split; [exact E|reflexivity]. }
  destruct (G k1 h1 u1 Hl1 Hk1 Hu1) as (r1 & O1 & E1 & R1), (G k2 h2 u2 Hl2 Hk2 Hu2) as (r2 & O2 & E2 & R2).
  exists (with_order (order_first k1) ev), (with_order (order_first k2) ev), r1, r2. repeat split; auto.
Qed.
Print Assumptions C30_host_by_chance.
Theorem C30_length_by_chance : forall U (ev : env U) s meth target fs rest k host u k1 v1 n1 k2 v2 n2,
  sent ev s meth target fs rest [] -> all_utf8 fs -> (exists t, target = bs "/" ++ t) ->
  last_field k host fs -> to_lower k = bs "host" -> spelled_once (bs "host") fs -> url_parse ev (bs "http://" ++ host ++ target) = Some u ->
  last_field k1 v1 fs -> to_lower k1 = bs "content-length" -> numeral (usize_bits ev) v1 n1 ->
  last_field k2 v2 fs -> to_lower k2 = bs "content-length" -> numeral (usize_bits ev) v2 n2 ->
  exists ev1 ev2 r1 r2, same_but_order ev ev1 /\ same_but_order ev ev2 /\ env_ok ev1 /\ env_ok ev2 /\
    request_parse ev1 s = Ok (Some r1) /\ (forall sz, positive sz -> into_bytes sz (rq_body r1) = Ok (firstn (N.to_nat n1) rest)) /\
    request_parse ev2 s = Ok (Some r2) /\ (forall sz, positive sz -> into_bytes sz (rq_body r2) = Ok (firstn (N.to_nat n2) rest)).
Proof.
  intros U ev s meth target fs rest k host u k1 v1 n1 k2 v2 n2 Hs Hu (t & Ht) Hl Hk Hone Hurl Hl1 Hk1 Hn1 Hl2 Hk2 Hn2. apply numeral_iff in Hn1, Hn2.
  assert (forall k' v n, last_field k' v fs -> to_lower k' = bs "content-length" -> parse_uint (usize_max (usize_bits ev)) v = Some n ->
    exists r, env_ok (with_order (order_first k') ev) /\ request_parse (with_order (order_first k') ev) s = Ok (Some r) /\
      forall sz, positive sz -> into_bytes sz (rq_body r) = Ok (firstn (N.to_nat n) rest)) as G.
  { intros k' v n Hl' Hk' Hn. assert (env_ok (with_order (order_first k') ev)) as Ok1 by (intros m W; apply order_first_perm; exact W).
    assert (sent (with_order (order_first k') ev) s meth target fs rest []) as Hs1.
    { destruct Hs as (_ & Hp & Hok & Hd). repeat split; auto; apply Hok. }
    destruct (sent_headers _ s meth target fs rest [] Hs1 Hu) as (rd & Hrep & Hcap & E). cbn zeta in E.
    rewrite (sent_find _ s meth target fs rest [] Hs1 (bs "host") k host eq_refl Hl Hk Hone) in E.
    cbn [with_order iter_order url_parse usize_bits] in E.
    assert (hm_wf (extend [] (map field_pair fs))) as W by apply extend_wf, hm_wf_nil.
    rewrite (order_first_find k' v _ (bs "content-length") W) in E; [|apply in_extend; now apply last_field_value|exact Hk'].
    assert (request_url (with_order (order_first k') ev) host meth target = Some u) as Eu.
    { destruct (request_url_addressed (with_order (order_first k') ev) host meth target) as [Ha _].
      rewrite (Ha (bs "http://" ++ host ++ target)); [exact Hurl|]. apply origin_form with t. exact Ht. }
    rewrite Eu in E. cbn [parsed_length] in E. rewrite Hn in E. eexists. split; [exact Ok1|]. split; [exact E|]. cbn [rq_body].
    intros sz Hsz. now rewrite (body_content rd _ rest [] sz Hrep Hcap Hsz); [|left]. }
  destruct (G k1 v1 n1 Hl1 Hk1 Hn1) as (r1 & O1 & E1 & R1), (G k2 v2 n2 Hl2 Hk2 Hn2) as (r2 & O2 & E2 & R2).
  exists (with_order (order_first k1) ev), (with_order (order_first k2) ev), r1, r2. repeat split; auto.
Qed.
Print Assumptions C30_length_by_chance.
Definition odd_fields : list field := map plain_field [(bs "Host", bs "a"); (bs "host", bs "b")].
Definition odd_lengths : list field := map plain_field [(bs "Host", bs "a"); (bs "Content-Length", bs "1"); (bs "content-length", bs "3")].
Lemma one_segment (d : str) : d <> [] -> delivers true [Data d] d [].
Proof. intros H. rewrite <- (app_nil_r d) at 2. apply dv_data; [exact H|constructor]. Qed.
Lemma odd_sent fs rest : fs = odd_fields \/ fs = odd_lengths ->
  sent (demo_env (@rev _)) [Data (request_head (bs "GET") (bs "/x") fs ++ rest)] (bs "GET") (bs "/x") fs rest [].
Proof.
  intros H. split; [apply demo_ok|]. split; [exact httparse_reads_requests|]. split.
  - split; [discriminate|]. split; [apply tchars_lit; vm_compute; reflexivity|]. split; [discriminate|].
    split; [apply targets_lit; vm_compute; reflexivity|].
    destruct H as [-> | ->]; (split; [|cbn; lia]; apply Forall_map; eapply Forall_impl; [|apply fields_lit; vm_compute; reflexivity]; now intros kv [H _]).
  - apply one_segment. discriminate.
Qed.
(** Not vacuous: the hypotheses of C30_host_by_chance, C30_length_by_chance and C89_stale_length. *)
Example C30_chance_example :
  sent (demo_env (@rev _)) [Data (request_head (bs "GET") (bs "/x") odd_fields ++ [])] (bs "GET") (bs "/x") odd_fields [] [] /\ all_utf8 odd_fields /\
  last_field (bs "Host") (bs "a") odd_fields /\ last_field (bs "host") (bs "b") odd_fields /\
  sent (demo_env (@rev _)) [Data (request_head (bs "GET") (bs "/x") odd_lengths ++ bs "xyz")] (bs "GET") (bs "/x") odd_lengths (bs "xyz") [] /\
  last_field (bs "Content-Length") (bs "1") odd_lengths /\ last_field (bs "content-length") (bs "3") odd_lengths /\ spelled_once (bs "host") odd_lengths /\
  numeral 32 (bs "1") 1 /\ numeral 32 (bs "3") 3.
Proof.
  split; [apply odd_sent; auto|]. split.
  { apply Forall_map. eapply Forall_impl; [|apply fields_lit; vm_compute; reflexivity]. intros [k v] [_ H]. exact H. }
  split; [apply last_field_value; vm_compute; reflexivity|]. split; [apply last_field_value; vm_compute; reflexivity|].
  split; [apply odd_sent; auto|]. split; [apply last_field_value; vm_compute; reflexivity|]. split; [apply last_field_value; vm_compute; reflexivity|].
  split; [|split; apply numeral_iff; vm_compute; reflexivity].
  intros f g [<-|[<-|[<-|[]]]] [<-|[<-|[<-|[]]]] H1 H2; try reflexivity; vm_compute in H1, H2; discriminate.
Qed.
Example C89_stale_example : exists wire, 
  request_write (demo_env (@rev _)) sz1 (snd (request_replace_body post_request (body_from_string (bs "hello, world")))) None = (wire, Ok tt) /\
  exists r', request_parse (demo_env (@rev _)) [Data wire] = Ok (Some r') /\ into_bytes sz1 (rq_body r') = Ok (firstn 5 (bs "hello, world")).
Proof.
  destruct post_ok as (H1 & H2 & H3 & H4 & H5 & _).
  destruct (C89_stale_length str (demo_env (@rev _)) sz1 post_request (body_from_string (bs "hello, world")) (bs "hello, world") (bs "example.org")
    (bs "http://example.org/a/b") (bs "5") 5%N) as (old & r1 & wire & E1 & E2 & H).
  - apply demo_ok.
  - exact httparse_reads_requests.
  - exact H1.
  - exists (bs "a/b"). reflexivity.
  - exact H2.
  - exact H3.
  - cbn. lia.
  - exact H4.
  - exact H5.
  - apply numeral_iff. vm_compute. reflexivity.
  - vm_compute. reflexivity.
  - apply field_lit. vm_compute. reflexivity.
  - apply (field_lit (bs "Content-Type", mime_format (b_mime (body_from_string (bs "hello, world"))))). vm_compute. reflexivity.
  - vm_compute. reflexivity.
  - exists wire. rewrite E1. cbn [snd]. split; [exact E2|].
    destruct (H [Data wire] [] []) as (r' & E & Hb).
    { rewrite app_nil_r. apply one_segment.
      intros ->. revert E2. vm_compute in E1. injection E1 as <- <-. vm_compute. discriminate. }
    { now left. }
    exists r'. split; [exact E|]. specialize (Hb sz1). rewrite app_nil_r in Hb. apply Hb. intros i. unfold sz1. lia.
Qed.
