(** Statements of PropHttp.v, continued: framing, round trips, encoder, bodies, builders. *)
From Coq Require Import Sorting.Sorted.
From Verif Require Import Base HMap Num Utf8 Io IoProofs HttpModel HttpSpec Httparse HttpProofs HttpProofs2 HttpProofs3 HttpProofs4 HttpLemmas.
Ltac Zify.zify_post_hook ::= Z.div_mod_to_equations.

(* ------------------------------------------------------------------ *)
(** ** Framing does not depend on the iteration order, if Host and Content-Length are spelled once *)

(** Two runs of the same program: they may differ in the random state of hash maps only. *)
Definition same_but_order {U} (ev1 ev2 : env U) : Prop :=
  parse_head_req ev1 = parse_head_req ev2 /\ parse_head_resp ev1 = parse_head_resp ev2 /\
  url_parse ev1 = url_parse ev2 /\ usize_bits ev1 = usize_bits ev2.

(** As [same_outcome], but the headers are compared as maps. *)
Definition same_message {U} (a b : res request_error (option (request U))) : Prop :=
  match a, b with
  | Ok None, Ok None => True
  | Err e, Err e' => e = e'
  | Ok (Some r), Ok (Some r') =>
      rq_method r = rq_method r' /\ rq_url r = rq_url r' /\ hm_equiv (rq_headers r) (rq_headers r') /\
      b_length (rq_body r) = b_length (rq_body r') /\
      forall sz sz', positive sz -> positive sz' -> into_bytes sz (rq_body r) = into_bytes sz' (rq_body r')
  | _, _ => False
  end.

Lemma last_field_exists f fs : In f fs -> exists v, last_field (f_name f) v fs.
Proof.
  intros H. destruct (last_value (f_name f) (map field_pair fs)) as [v|] eqn:E.
  - exists v. now apply last_field_value.
  - apply last_value_none in E. destruct E. rewrite map_map. apply in_map_iff. exists f. auto.
Qed.

Lemma find_once {U} (ev : env U) s meth target fs rest tail name :
  sent ev s meth target fs rest tail -> to_lower name = name -> spelled_once name fs ->
  (exists k v, last_field k v fs /\ to_lower k = name /\
     find_header name (iter_order ev (extend [] (map field_pair fs))) = Some v) \/
  (Forall (fun f => to_lower (f_name f) <> name) fs /\
     find_header name (iter_order ev (extend [] (map field_pair fs))) = None).
Proof.
  intros Hs Hn Hone.
  destruct (existsb (fun f => str_eqb (to_lower (f_name f)) name) fs) eqn:E.
  - left. apply existsb_exists in E as (f & Hf & E). apply str_eqb_eq in E.
    destruct (last_field_exists f fs Hf) as (v & Hv). exists (f_name f), v. split; [exact Hv|]. split; [exact E|].
    eapply sent_find; eauto.
  - right. assert (Forall (fun f => to_lower (f_name f) <> name) fs) as F.
    { apply Forall_forall. intros f Hf Hc. apply Bool.not_true_iff_false in E. apply E. apply existsb_exists.
      exists f. split; [exact Hf|]. now apply str_eqb_eq. }
    split; [exact F|]. eapply sent_find_none; eauto.
Qed.

Lemma utf8_or_not fs : all_utf8 fs \/ exists f, In f fs /\ ~ is_utf8 (f_value f).
Proof.
  destruct (forallb (fun f => valid_utf8 (f_value f)) fs) eqn:E.
  - left. apply Forall_forall. intros f Hf. rewrite forallb_forall in E. apply valid_utf8_iff. now apply E.
  - right. assert (existsb (fun f => negb (valid_utf8 (f_value f))) fs = true) as H.
    { clear -E. induction fs as [|f fs IH]; cbn in *; [discriminate|]. destruct (valid_utf8 (f_value f)); cbn in *; auto. }
    apply existsb_exists in H as (f & Hf & H). exists f. split; [exact Hf|]. intros Hu. apply valid_utf8_iff in Hu. rewrite Hu in H. discriminate.
Qed.

Lemma framing_unambiguous {U} (ev1 ev2 : env U) s1 s2 meth target fs rest :
  same_but_order ev1 ev2 -> sent ev1 s1 meth target fs rest [] -> sent ev2 s2 meth target fs rest [] ->
  spelled_once (bs "host") fs -> spelled_once (bs "content-length") fs ->
  same_message (request_parse ev1 s1) (request_parse ev2 s2).
Proof.
  intros (Eq & Er & Eu & Eb) H1 H2 Hh Hc.
  destruct (utf8_or_not fs) as [Hu|(f & Hf & Hbad)].
  2:{ rewrite (invalid_value ev1 s1 meth target fs rest [] f), (invalid_value ev2 s2 meth target fs rest [] f); auto. reflexivity. }
  destruct (sent_headers ev1 s1 meth target fs rest [] H1 Hu) as (rd1 & R1 & C1 & ->).
  destruct (sent_headers ev2 s2 meth target fs rest [] H2 Hu) as (rd2 & R2 & C2 & ->).
  assert (forall name, to_lower name = name -> spelled_once name fs ->
    find_header name (iter_order ev1 (extend [] (map field_pair fs))) = find_header name (iter_order ev2 (extend [] (map field_pair fs)))) as Hfind.
  { intros name Hn Ho. destruct (find_once ev1 _ _ _ _ _ _ name H1 Hn Ho) as [(k & v & Hl & Hk & ->)|[F ->]].
    - symmetry. eapply sent_find; eauto.
    - symmetry. eapply sent_find_none; eauto. }
  rewrite (Hfind (bs "host") eq_refl Hh), (Hfind (bs "content-length") eq_refl Hc), Eb.
  destruct (find_header (bs "host") _) as [h|]; [|reflexivity].
  assert (request_url ev1 h meth target = request_url ev2 h meth target) as -> by (unfold request_url; now rewrite Eu).
  destruct (request_url ev2 h meth target) as [u|]; [|reflexivity].
  cbn [same_message rq_method rq_url rq_headers rq_body b_length body_from_reader].
  split; [reflexivity|]. split; [reflexivity|]. split.
  { destruct H1 as (O1 & _), H2 as (O2 & _). pose proof (extend_wf [] (map field_pair fs) hm_wf_nil) as W.
    intros k. rewrite <- (perm_equiv _ _ W (O1 _ W) k). apply (perm_equiv _ _ W (O2 _ W) k). }
  split; [reflexivity|]. intros sz sz' Hsz Hsz'.
  rewrite (body_content rd1 _ rest [] sz), (body_content rd2 _ rest [] sz'); auto.
Qed.

Definition two_hosts : str := bs "GET / HTTP/1.1" ++ CRLF ++ bs "Host: a" ++ CRLF ++ bs "host: b" ++ CRLF ++ CRLF.
Definition two_lengths : str := bs "GET / HTTP/1.1" ++ CRLF ++ bs "Host: a" ++ CRLF ++ bs "Content-Length: 1" ++ CRLF ++
  bs "content-length: 3" ++ CRLF ++ CRLF ++ bs "xyz".
Definition sz1 (i : nat) : nat := 100.
Lemma framing_ambiguous :
  (exists r1 r2, request_parse (demo_env (fun m => m)) [Data two_hosts] = Ok (Some r1) /\
     request_parse (demo_env (@rev _)) [Data two_hosts] = Ok (Some r2) /\ rq_url r1 <> rq_url r2) /\
  (exists r1 r2, request_parse (demo_env (fun m => m)) [Data two_lengths] = Ok (Some r1) /\
     request_parse (demo_env (@rev _)) [Data two_lengths] = Ok (Some r2) /\
     into_bytes sz1 (rq_body r1) = Ok (bs "x") /\ into_bytes sz1 (rq_body r2) = Ok (bs "xyz")).
Proof.
  split; do 2 eexists; (split; [vm_compute; reflexivity|]); (split; [vm_compute; reflexivity|]).
  - vm_compute. discriminate.
  - split; vm_compute; reflexivity.
Qed.

(* ------------------------------------------------------------------ *)
(** ** Writing a request and parsing it *)

(** Methods whose written form is a method token that reads back. *)
Definition plain_method (m : method) : Prop :=
  match m with
  | Get | Post => True
  | Head => False
  | OtherMethod n => n <> [] /\ Forall tchar n /\ to_lower n <> bs "get" /\ to_lower n <> bs "post"
  end.
Lemma tchars_lit (s : str) : forallb (fun b => existsb (byte_eqb b) (alnum ++ bs "!#$%&'*+-.^_`|~")) s = true -> Forall tchar s.
Proof.
  intros H. apply Forall_forall. intros b Hb. rewrite forallb_forall in H. specialize (H b Hb).
  apply existsb_exists in H as (c & Hc & E). apply byte_eqb_eq in E as ->. exact Hc.
Qed.
Lemma targets_lit (s : str) : forallb (fun b => existsb (byte_eqb b) (alnum ++ bs "-._~:/?#[]@!$&'()*+,;=%")) s = true -> Forall target_char s.
Proof.
  intros H. apply Forall_forall. intros b Hb. rewrite forallb_forall in H. specialize (H b Hb).
  apply existsb_exists in H as (c & Hc & E). apply byte_eqb_eq in E as ->. exact Hc.
Qed.
Lemma plain_method_text m : plain_method m ->
  method_text m <> [] /\ Forall tchar (method_text m) /\ method_from_str (method_text m) = m.
Proof.
  destruct m as [| | |n]; cbn [plain_method method_text]; try contradiction.
  - intros _. split; [discriminate|]. split; [apply tchars_lit|]; vm_compute; reflexivity.
  - intros _. split; [discriminate|]. split; [apply tchars_lit|]; vm_compute; reflexivity.
  - intros (H1 & H2 & H3 & H4). split; [exact H1|]. split; [exact H2|]. unfold method_from_str.
    destruct (str_eqb (to_lower n) (bs "get")) eqn:E1; [apply str_eqb_eq in E1; contradiction|].
    destruct (str_eqb (to_lower n) (bs "post")) eqn:E2; [apply str_eqb_eq in E2; contradiction|reflexivity].
Qed.
Lemma head_not_round_trip : method_from_str (method_text Head) <> Head /\
  method_from_str (bs "HEAD") <> Head /\ forall s, method_from_str s <> Head.
Proof.
  assert (forall s, method_from_str s <> Head) as H.
  { intros s. unfold method_from_str. destruct (str_eqb _ _); [discriminate|]. destruct (str_eqb _ _); discriminate. }
  auto.
Qed.

(** A header map that can be written: at most 20 fields, each a valid name and value. *)
Definition writable_headers (hs : hmap str) : Prop :=
  hm_wf hs /\ length hs <= 20 /\ Forall (fun kv => field_ok (plain_field kv) /\ is_utf8 (snd kv)) hs.
(** The map has exactly one field with this (lower-case) name, with value [v]. *)
Definition only_header (name v : str) (hs : hmap str) : Prop :=
  exists k, In (k, v) hs /\ to_lower k = name /\ forall k' v', In (k', v') hs -> to_lower k' = name -> k' = k /\ v' = v.
Definition no_header (name : str) (hs : hmap str) : Prop := forall k v, In (k, v) hs -> to_lower k <> name.

Lemma drain_of_into sz (b : hbody) content : into_bytes sz b = Ok content ->
  exists chunks b', drain sz b = (chunks, (Ok tt, b')) /\ concat chunks = content.
Proof.
  unfold into_bytes. destruct (drain sz b) as [ds [[[]|e| |] b']]; try discriminate. intros [= <-]. eauto.
Qed.

Lemma find_only name v (hs hs' : hmap str) : to_lower name = name -> only_header name v hs -> Permutation hs hs' ->
  find_header name hs' = Some v.
Proof.
  intros Hn (k & Hin & Hk & Hu) P. apply (find_header_unique _ _ k v).
  - eapply Permutation_in; eauto.
  - congruence.
  - intros k' v' Hin' Hk'. symmetry in P. apply (Permutation_in _ P) in Hin'. rewrite Hn in Hk'. now destruct (Hu k' v' Hin' Hk').
Qed.
Lemma find_no name (hs hs' : hmap str) : to_lower name = name -> no_header name hs -> Permutation hs hs' -> find_header name hs' = None.
Proof.
  intros Hn Hno P. apply find_header_none. intros k v Hin. symmetry in P. apply (Permutation_in _ P) in Hin. rewrite Hn. eauto.
Qed.

Lemma request_round_trip {U} (ev : env U) sz r content host u' :
  env_ok ev -> reads_requests (parse_head_req ev) ->
  plain_method (rq_method r) ->
  (exists t, url_path ev (rq_url r) = bs "/" ++ t) -> Forall target_char (url_path ev (rq_url r)) ->
  writable_headers (rq_headers r) -> only_header (bs "host") host (rq_headers r) ->
  url_parse ev (bs "http://" ++ host ++ url_path ev (rq_url r)) = Some u' ->
  into_bytes sz (rq_body r) = Ok content ->
  exists wire, request_write ev sz r None = (wire, Ok tt) /\
    forall s rest tail, delivers true s (wire ++ rest) tail ->
    ((exists v, only_header (bs "content-length") v (rq_headers r) /\
        parse_uint (usize_max (usize_bits ev)) v = Some (N.of_nat (length content))) \/
     (no_header (bs "content-length") (rq_headers r) /\ rest = [] /\ tail = [])) ->
    exists r', request_parse ev s = Ok (Some r') /\
      rq_method r' = rq_method r /\ rq_url r' = u' /\ hm_equiv (rq_headers r') (rq_headers r) /\
      forall sz', positive sz' -> into_bytes sz' (rq_body r') = Ok content.
Proof.
  intros Hev Hp Hm (t & Hpath) Htc (W & Hlen & Hf) Hhost Hurl Hbody.
  destruct (drain_of_into sz _ _ Hbody) as (chunks & b' & Ed & Ec).
  pose proof (plain_method_text _ Hm) as (Mne & Mtc & Mrt).
  eexists. split; [apply (request_write_exact ev sz r chunks b' Ed)|].
  intros s rest tail Hd Hcl.
  set (fs := map plain_field (rq_headers r)).
  assert (request_head_ok (method_text (rq_method r)) (url_path ev (rq_url r)) fs) as Hok.
  { split; [exact Mne|]. split; [exact Mtc|]. split; [rewrite Hpath; discriminate|]. split; [exact Htc|].
    split; [|unfold fs; now rewrite map_length].
    apply Forall_map. eapply Forall_impl; [|exact Hf]. now intros kv [H _]. }
  assert (delivers true s (request_head (method_text (rq_method r)) (url_path ev (rq_url r)) fs ++ content ++ rest) tail) as Hd'.
  { rewrite <- Ec. revert Hd. rewrite header_lines_fields. fold fs. unfold request_head. now rewrite <- !app_assoc. }
  assert (sent ev s (method_text (rq_method r)) (url_path ev (rq_url r)) fs (content ++ rest) tail) as Hs by (repeat split; auto; apply Hok).
  assert (all_utf8 fs) as Hu.
  { apply Forall_map. eapply Forall_impl; [|exact Hf]. intros [k v] [_ H]. exact H. }
  destruct (sent_headers ev s _ _ fs _ tail Hs Hu) as (rd & Hrep & Hcap & ->).
  assert (extend [] (map field_pair fs) = rq_headers r) as Eh.
  { unfold fs. rewrite plain_pairs. apply extend_nodup. exact W. }
  rewrite Eh. pose proof (Hev _ W) as P.
  rewrite (find_only (bs "host") host (rq_headers r) _ eq_refl Hhost P).
  assert (request_url ev host (method_text (rq_method r)) (url_path ev (rq_url r)) = Some u') as ->.
  { destruct (request_url_addressed ev host (method_text (rq_method r)) (url_path ev (rq_url r))) as [Ha _].
    rewrite (Ha (bs "http://" ++ host ++ url_path ev (rq_url r))); [exact Hurl|]. apply origin_form with t. exact Hpath. }
  eexists. split; [reflexivity|]. cbn [rq_method rq_url rq_headers rq_body]. split; [exact Mrt|]. split; [reflexivity|].
  split; [apply hm_equiv_sym, perm_equiv; auto|]. intros sz' Hsz'.
  destruct Hcl as [(v & Hv & Hn)|(Hno & -> & ->)].
  - rewrite (find_only _ v _ _ eq_refl Hv P). cbn [parsed_length]. rewrite Hn.
    rewrite (body_content rd _ (content ++ rest) tail sz'); auto.
    + now rewrite Nat2N.id, firstn_app, Nat.sub_diag, firstn_all, app_nil_r.
    + right. eexists. split; [reflexivity|]. rewrite app_length. lia.
  - rewrite (find_no _ _ _ eq_refl Hno P). cbn [parsed_length]. rewrite app_nil_r in Hrep.
    now rewrite (body_content rd None content [] sz'); auto.
Qed.

(** The query never reaches the wire. *)
Lemma query_not_written {U} (ev : env U) sz hs m b u1 u2 budget : url_path ev u1 = url_path ev u2 ->
  request_write ev sz (Request hs m b u1) budget = request_write ev sz (Request hs m b u2) budget.
Proof. intros H. unfold request_write. cbn [rq_headers rq_method rq_body rq_url]. now rewrite H. Qed.
Definition query_request : request str := Request [(bs "Host", bs "h")] Get (body_from_string []) (bs "http://h/p?q=1").
Lemma query_lost : exists wire r',
  request_write (demo_env (fun m => m)) sz1 query_request None = (wire, Ok tt) /\
  request_parse (demo_env (fun m => m)) [Data wire] = Ok (Some r') /\
  rq_url r' = bs "http://h/p".
Proof. do 2 eexists. split; [vm_compute; reflexivity|]. split; vm_compute; reflexivity. Qed.

(* ------------------------------------------------------------------ *)
(** ** The encoder *)
Lemma encoder_exact sz r content : hm_wf (rs_headers r) -> into_bytes sz (rs_body r) = Ok content ->
  exists hs, Permutation hs (rs_headers r) /\ StronglySorted (fun a b => bytes_lt (fst a) (fst b)) hs /\
    encode sz r None =
    (bs "HTTP/1.1 " ++ dec (rs_status r) ++ bs " " ++ rs_reason r ++ CRLF ++
     flat_map (fun kv => fst kv ++ bs ": " ++ snd kv ++ CRLF) hs ++ CRLF ++ content, Ok tt).
Proof.
  intros W Hb. destruct (drain_of_into sz _ _ Hb) as (chunks & b' & Ed & Ec).
  exists (sort_headers (rs_headers r)). split; [symmetry; apply sort_headers_perm|]. split.
  - apply sorted_strict; [|apply sort_headers_sorted]. eapply Permutation_NoDup; [|exact W]. apply Permutation_map, sort_headers_perm.
  - rewrite (encode_exact sz r chunks b' Ed), Ec. reflexivity.
Qed.
Lemma encoder_deterministic sz hs1 hs2 b code reason budget : hm_wf hs1 -> hm_wf hs2 -> hm_equiv hs1 hs2 ->
  encode sz (Response hs1 b code reason) budget = encode sz (Response hs2 b code reason) budget.
Proof.
  intros W1 W2 E. unfold encode. cbn [rs_headers rs_status rs_reason rs_body].
  now rewrite (sort_headers_canonical hs1 hs2 W1 (equiv_perm _ _ W1 W2 E)).
Qed.

Lemma writable_perm hs hs' : Permutation hs hs' -> writable_headers hs -> writable_headers hs'.
Proof.
  intros P (W & L & F). split; [eapply perm_wf; eauto|]. split; [now rewrite <- (Permutation_length P)|].
  rewrite Forall_forall in *. intros kv Hin. apply F. symmetry in P. eapply Permutation_in; eauto.
Qed.

(** Parsing a well-formed response head. *)
Lemma response_sent {U} (ev : env U) s code reason fs rest tail :
  env_ok ev -> reads_responses (parse_head_resp ev) -> response_head_ok code reason fs -> all_utf8 fs ->
  delivers true s (response_head code reason fs ++ rest) tail ->
  exists rd, rep true rd rest tail /\ 0 < br_cap rd /\
    response_parse ev s = Ok (Some (Response (iter_order ev (extend [] (map field_pair fs)))
      (body_from_reader rd (parsed_length (usize_bits ev)
         (find_header (bs "content-type") (iter_order ev (extend [] (map field_pair fs)))))) code reason)).
Proof.
  intros Hev Hp Hok Hu Hd.
  destruct (response_parse_head ev s _ rest tail Hd (response_head_complete _ _ _ Hok)) as (rd & E & Hrep & Hcap).
  exists rd. split; [exact Hrep|]. split; [exact Hcap|]. rewrite E. unfold response_of_head. rewrite (Hp _ _ _ Hok).
  cbn [hr_status hr_code hr_reason hr_headers]. rewrite insert_headers_ok; [reflexivity|].
  apply Forall_map. eapply Forall_impl; [|exact Hu]. auto.
Qed.

Lemma response_round_trip {U} (ev : env U) sz r content :
  env_ok ev -> reads_responses (parse_head_resp ev) ->
  (100 <= rs_status r <= 999)%N -> Forall reason_char (rs_reason r) -> writable_headers (rs_headers r) ->
  (forall k v, In (k, v) (rs_headers r) -> to_lower k = bs "content-type" -> parse_uint (usize_max (usize_bits ev)) v = None) ->
  into_bytes sz (rs_body r) = Ok content ->
  exists wire, encode sz r None = (wire, Ok tt) /\
    forall s, delivers true s wire [] ->
    exists r', response_parse ev s = Ok (Some r') /\
      rs_status r' = rs_status r /\ rs_reason r' = rs_reason r /\ hm_equiv (rs_headers r') (rs_headers r) /\
      forall sz', positive sz' -> into_bytes sz' (rs_body r') = Ok content.
Proof.
  intros Hev Hp Hcode Hreason Hw Hct Hb.
  destruct (drain_of_into sz _ _ Hb) as (chunks & b' & Ed & Ec).
  eexists. split; [apply (encode_exact sz r chunks b' Ed)|]. intros s Hd.
  pose proof (sort_headers_perm (rs_headers r)) as P0. set (hs := sort_headers (rs_headers r)) in *.
  pose proof (writable_perm _ _ P0 Hw) as (W & Hlen & Hf). set (fs := map plain_field hs).
  assert (response_head_ok (rs_status r) (rs_reason r) fs) as Hok.
  { split; [exact Hcode|]. split; [exact Hreason|]. split; [|unfold fs; now rewrite map_length].
    apply Forall_map. eapply Forall_impl; [|exact Hf]. now intros kv [H _]. }
  assert (all_utf8 fs) as Hu.
  { apply Forall_map. eapply Forall_impl; [|exact Hf]. intros [k v] [_ H]. exact H. }
  assert (delivers true s (response_head (rs_status r) (rs_reason r) fs ++ content) []) as Hd'.
  { rewrite <- Ec. revert Hd. rewrite header_lines_fields. fold fs. unfold response_head. rewrite dec_code by exact Hcode. now rewrite <- !app_assoc. }
  destruct (response_sent ev s _ _ fs content [] Hev Hp Hok Hu Hd') as (rd & Hrep & Hcap & ->).
  assert (extend [] (map field_pair fs) = hs) as -> by (unfold fs; rewrite plain_pairs; apply extend_nodup; exact W).
  pose proof (Hev _ W) as P.
  eexists. split; [reflexivity|]. cbn [rs_status rs_reason rs_headers rs_body]. do 2 (split; [reflexivity|]).
  split.
  { apply hm_equiv_trans with hs; [apply hm_equiv_sym, perm_equiv; auto|]. apply hm_equiv_sym, perm_equiv; [apply Hw|exact P0]. }
  intros sz' Hsz'.
  assert (parsed_length (usize_bits ev) (find_header (bs "content-type") (iter_order ev hs)) = None) as ->.
  { destruct (find_header (bs "content-type") (iter_order ev hs)) as [v|] eqn:E; [|reflexivity].
    apply find_header_some in E as (k & Hin & Hk). cbn [parsed_length]. apply (Hct k v); [|exact Hk].
    symmetry in P, P0. apply (Permutation_in _ P0), (Permutation_in _ P), Hin. }
  now rewrite (body_content rd None content [] sz'); auto.
Qed.

(** A response body is everything up to the end of the connection, whatever Content-Length says. *)
Lemma response_body_to_eof {U} (ev : env U) s code reason fs rest :
  env_ok ev -> reads_responses (parse_head_resp ev) -> response_head_ok code reason fs -> all_utf8 fs ->
  Forall (fun f => to_lower (f_name f) = bs "content-type" -> parse_uint (usize_max (usize_bits ev)) (f_value f) = None) fs ->
  delivers true s (response_head code reason fs ++ rest) [] ->
  exists r, response_parse ev s = Ok (Some r) /\ rs_status r = code /\ rs_reason r = reason /\
    (forall k v, get k (rs_headers r) = Some v <-> last_field k v fs) /\
    forall sz, positive sz -> into_bytes sz (rs_body r) = Ok rest.
Proof.
  intros Hev Hp Hok Hu Hct Hd.
  destruct (response_sent ev s code reason fs rest [] Hev Hp Hok Hu Hd) as (rd & Hrep & Hcap & ->).
  pose proof (extend_wf [] (map field_pair fs) hm_wf_nil) as W. pose proof (Hev _ W) as P.
  set (m := extend [] (map field_pair fs)) in *.
  assert (forall k v, In (k, v) (iter_order ev m) <-> last_field k v fs) as Hin.
  { intros k v. rewrite last_field_value, <- in_extend. split; intros H; (eapply Permutation_in; [|exact H]); [now symmetry|exact P]. }
  eexists. split; [reflexivity|]. cbn [rs_status rs_reason rs_headers rs_body]. do 2 (split; [reflexivity|]). split.
  { intros k v. rewrite <- Hin. split; [apply get_some_in|apply in_get; eapply perm_wf; eauto]. }
  intros sz Hsz.
  assert (parsed_length (usize_bits ev) (find_header (bs "content-type") (iter_order ev m)) = None) as ->.
  { destruct (find_header (bs "content-type") (iter_order ev m)) as [v|] eqn:E; [|reflexivity].
    apply find_header_some in E as (k & Hkv & Hk). cbn [parsed_length]. apply Hin in Hkv as (a & f & b & -> & <- & <- & _).
    rewrite Forall_forall in Hct. apply Hct; [apply in_or_app; right; now left|exact Hk]. }
  now rewrite (body_content rd None rest [] sz); auto.
Qed.
(** Worse: a Content-Type that is a number is used as the length. *)
Definition long_response : str := bs "HTTP/1.1 200 OK" ++ CRLF ++ bs "Content-Length: 5" ++ CRLF ++ CRLF ++ bs "helloHTTP/1.1 404 NO".
Definition typed_response : str := bs "HTTP/1.1 200 OK" ++ CRLF ++ bs "Content-Length: 5" ++ CRLF ++ bs "Content-Type: 2" ++ CRLF ++ CRLF ++ bs "hello".
Lemma content_length_ignored :
  (exists r, response_parse (demo_env (fun m => m)) [Data long_response] = Ok (Some r) /\
     get (bs "Content-Length") (rs_headers r) = Some (bs "5") /\
     into_bytes sz1 (rs_body r) = Ok (bs "helloHTTP/1.1 404 NO")) /\
  (exists r, response_parse (demo_env (fun m => m)) [Data typed_response] = Ok (Some r) /\
     get (bs "Content-Length") (rs_headers r) = Some (bs "5") /\ into_bytes sz1 (rs_body r) = Ok (bs "he")).
Proof. split; eexists; (split; [vm_compute; reflexivity|]); split; vm_compute; reflexivity. Qed.

(** ** Injection *)
Lemma injection_possible : exists r1 r2,
  length (rs_headers r1) = 1 /\ length (rs_headers r2) = 2 /\ encode sz1 r1 None = encode sz1 r2 None.
Proof.
  exists (Response [(bs "A", bs "x" ++ CRLF ++ bs "Set-Cookie: y")] (body_from_string []) 200 (bs "OK")),
         (Response [(bs "A", bs "x"); (bs "Set-Cookie", bs "y")] (body_from_string []) 200 (bs "OK")).
  split; [reflexivity|]. split; [reflexivity|]. vm_compute. reflexivity.
Qed.

Lemma split_lines ls : Forall no_crlf ls ->
  split_on x0a (flat_map (fun l => l ++ CRLF) ls) = map (fun l => l ++ [x0d]) ls ++ [[]].
Proof.
  induction 1 as [|l ls [Hcr Hlf] Hls IH]; cbn [flat_map map app]; [reflexivity|].
  unfold CRLF at 1. change [x0d; x0a] with ([x0d] ++ [x0a]). rewrite app_assoc, <- app_assoc. cbn [app]. rewrite split_on_app.
  - now rewrite IH.
  - rewrite in_app_iff. intros [H|[H|[]]]; [auto|discriminate].
Qed.

Lemma dec_no_crlf n : no_crlf (dec n).
Proof.
  unfold no_crlf. split; intros H; pose proof (dec_digits n) as F; rewrite Forall_forall in F; apply F in H; vm_compute in H; intuition discriminate.
Qed.

Lemma injection_free sz r content : hm_wf (rs_headers r) -> no_crlf (rs_reason r) ->
  Forall (fun kv => no_crlf (fst kv) /\ no_crlf (snd kv)) (rs_headers r) ->
  into_bytes sz (rs_body r) = Ok content ->
  exists head hs, encode sz r None = (head ++ content, Ok tt) /\ complete_head head /\ Permutation hs (rs_headers r) /\
    split_on x0a head =
    (map (fun l => l ++ [x0d])
       ((bs "HTTP/1.1 " ++ dec (rs_status r) ++ bs " " ++ rs_reason r)
        :: map (fun kv => fst kv ++ bs ": " ++ snd kv) hs ++ [[]])) ++ [[]].
Proof.
  intros W Hr Hh Hb. destruct (encoder_exact sz r content W Hb) as (hs & P & _ & E).
  assert (Forall (fun kv => no_crlf (fst kv) /\ no_crlf (snd kv)) hs) as Hh'.
  { rewrite Forall_forall in *. intros kv Hin. apply Hh. eapply Permutation_in; eauto. }
  set (st := bs "HTTP/1.1 " ++ dec (rs_status r) ++ bs " " ++ rs_reason r) in *.
  set (hls := map (fun kv : str * str => fst kv ++ bs ": " ++ snd kv) hs).
  assert (no_crlf st) as Hst by (unfold st; repeat apply no_crlf_app; auto using dec_no_crlf; apply no_crlf_lit; reflexivity).
  assert (Forall (fun l => l <> [] /\ no_crlf l) (st :: hls)) as Hls.
  { constructor; [split; [unfold st; discriminate|exact Hst]|]. apply Forall_map. eapply Forall_impl; [|exact Hh'].
    intros [k v] [Hk Hv]. cbn [fst snd] in *. split; [destruct k; discriminate|]. repeat apply no_crlf_app; auto. apply no_crlf_lit; reflexivity. }
  exists (lines_text (st :: hls)), hs. split.
  { rewrite E. f_equal. unfold lines_text, st, hls. cbn [flat_map]. rewrite <- !app_assoc. do 5 f_equal.
    clear. induction hs as [|[k v] hs IH]; cbn [map flat_map fst snd]; [reflexivity|]. rewrite <- !app_assoc. do 4 f_equal. exact IH. }
  split; [apply lines_complete; [discriminate|exact Hls]|]. split; [exact P|].
  assert (lines_text (st :: hls) = flat_map (fun l => l ++ CRLF) (st :: hls ++ [[]])) as ->.
  { unfold lines_text. rewrite app_comm_cons, flat_map_app. cbn [flat_map app]. now rewrite ?app_nil_r. }
  rewrite split_lines; [reflexivity|]. rewrite app_comm_cons. apply Forall_app. split.
  - eapply Forall_impl; [|exact Hls]. now intros l [_ H].
  - repeat constructor; auto.
Qed.

(** ** Malformed response heads *)
Definition bad_response : str := bs "HTTP/1.1 200 OK" ++ CRLF ++ bs "this is not a header" ++ CRLF ++ CRLF.
Lemma malformed_accepted :
  hr_status (httparse_response bad_response) = HpError /\
  exists r, response_parse (demo_env (fun m => m)) [Data bad_response] = Ok (Some r) /\ rs_status r = 200%N.
Proof. split; [vm_compute; reflexivity|]. eexists. split; vm_compute; reflexivity. Qed.
Lemma malformed_rejected {U} (ev : env U) s head rest tail r :
  delivers true s (head ++ rest) tail -> complete_head head -> response_parse ev s = Ok (Some r) ->
  hr_code (parse_head_resp ev head) = Some (rs_status r) /\ hr_reason (parse_head_resp ev head) = Some (rs_reason r) /\
  Forall (fun kv => is_utf8 (snd kv)) (hr_headers (parse_head_resp ev head)).
Proof.
  intros Hd Hc. destruct (response_parse_head ev s head rest tail Hd Hc) as (rd & -> & _ & _).
  unfold response_of_head. destruct (insert_headers _ _) as [m|] eqn:E; [|discriminate].
  apply insert_headers_some in E as [_ F].
  destruct (hr_code _) as [c|]; [|discriminate]. destruct (hr_reason _) as [rn|]; [|discriminate]. intros [= <-]. auto.
Qed.

(* ------------------------------------------------------------------ *)
(** ** Bodies *)
Lemma string_body s : is_utf8 s ->
  b_length (body_from_string s) = Some (N.of_nat (length s)) /\
  forall sz, positive sz -> into_bytes sz (body_from_string s) = Ok s /\
    forall lim, (N.of_nat (length s) <= lim)%N -> into_string lim sz (body_from_string s) = Ok s.
Proof.
  intros Hu. split; [reflexivity|]. intros sz Hsz. destruct (from_string_drain sz s Hsz) as (ds & b' & E & Ec).
  assert (into_bytes sz (body_from_string s) = Ok s) as Hb by (unfold into_bytes; now rewrite E, Ec).
  split; [exact Hb|]. intros lim Hl. unfold into_string. cbn [b_length body_from_string]. apply N.ltb_ge in Hl. rewrite Hl, Hb. apply valid_utf8_iff in Hu. now rewrite Hu.
Qed.
Lemma string_body_reads s ns rs b' : body_reads br_read ns (body_from_string s) = (rs, b') ->
  Forall2 (fun n r => exists d, r = Ok d /\ length d <= n) ns rs /\
  (exists rest, s = concat (map got rs) ++ rest) /\
  (Forall (fun n => 0 < n) ns -> length s <= length ns -> concat (map got rs) = s).
Proof.
  intros H. split; [|split; [eapply from_string_reads; eauto|intros; eapply from_string_progress; eauto]].
  assert (forall b rs b', br_in (b_reader b) = [] -> body_sound b -> body_reads br_read ns b = (rs, b') ->
    Forall2 (fun n r => exists d, r = Ok d /\ length d <= n) ns rs) as G.
  2:{ eapply G; [| |exact H]; [reflexivity|]. unfold body_sound, body_from_string. cbn. lia. }
  clear. induction ns as [|n ns IH]; intros b rs b' Hin Hs H; cbn [body_reads] in H.
  - injection H as <- <-. constructor.
  - destruct (body_read br_read n b) as [r b1] eqn:E1. destruct (body_reads br_read ns b1) as [rs1 b2] eqn:E2. injection H as <- <-.
    destruct (body_read_step _ n b r b1 br_reader_ok Hs E1) as (S1 & _ & _ & _ & _ & Hl).
    assert ((exists d, r = Ok d) /\ br_in (b_reader b1) = []) as [(d & ->) Hin1].
    { rewrite body_read_eq in E1 by exact Hs. destruct (match body_left b with Some 0%N => true | _ => false end).
      { injection E1 as <- <-. split; eauto. }
      unfold br_read in E1. rewrite Hin in E1.
      destruct (_ && _); cbn in E1.
      - injection E1 as <- <-. cbn. split; eauto.
      - unfold br_fill in E1. rewrite Hin in E1. destruct (br_buf (b_reader b)) as [|x l] eqn:Eb; cbn [raw_read] in E1; injection E1 as <- <-; cbn; split; eauto. }
    constructor; [eauto|eapply IH; eauto].
Qed.

(** ** Builders *)
Inductive rq_call := QHeader (k v : str) | QHeaders (kvs : list (str * str)) | QBody (b : hbody) | QMethod (m : method).
Definition rq_step {U} (b : request_builder U) (c : rq_call) : request_builder U :=
  match c with
  | QHeader k v => rqb_header k v b | QHeaders kvs => rqb_headers kvs b
  | QBody bd => rqb_body bd b | QMethod m => rqb_method m b
  end.
(** The (name, value) settings made, in order; the last method and the last body supplied. *)
Definition rq_settings (cs : list rq_call) : list (str * str) :=
  flat_map (fun c => match c with QHeader k v => [(k, v)] | QHeaders kvs => kvs | _ => [] end) cs.
Definition last_some {A B} (f : A -> option B) (l : list A) : option B :=
  fold_left (fun acc x => match f x with Some y => Some y | None => acc end) l None.
Definition rq_method_of (c : rq_call) : option method := match c with QMethod m => Some m | _ => None end.
Definition rq_body_of (c : rq_call) : option hbody := match c with QBody b => Some b | _ => None end.
(** [(k, v)] is the last setting of [k]. *)
Definition last_set (k v : str) (sets : list (str * str)) : Prop :=
  exists l1 l2, sets = l1 ++ (k, v) :: l2 /\ ~ In k (map fst l2).

Lemma fold_some {A B} (f : A -> option B) l acc :
  fold_left (fun acc x => match f x with Some y => Some y | None => acc end) l acc =
  match last_some f l with Some y => Some y | None => acc end.
Proof.
  unfold last_some. revert acc. induction l as [|x l IH]; intros acc; cbn [fold_left]; [now destruct acc|].
  rewrite IH. rewrite (IH (match f x with Some y => Some y | None => None end)).
  destruct (fold_left _ l None); [reflexivity|]. now destruct (f x).
Qed.
Lemma last_some_spec {A B} (f : A -> option B) l y : last_some f l = Some y <->
  exists l1 x l2, l = l1 ++ x :: l2 /\ f x = Some y /\ Forall (fun z => f z = None) l2.
Proof.
  induction l as [|x l IH]; cbn.
  - split; [discriminate|]. intros (l1 & ? & ? & E & _). destruct l1; discriminate.
  - rewrite fold_some. split.
    + destruct (last_some f l) as [z|] eqn:E.
      * intros [= ->]. destruct (proj1 IH eq_refl) as (l1 & x' & l2 & -> & Hx & F). exists (x :: l1), x', l2. auto.
      * intros H. assert (f x = Some y) as Hx by (destruct (f x); congruence). exists [], x, l. split; [reflexivity|]. split; [exact Hx|].
        apply Forall_forall. intros z Hz. destruct (f z) as [w|] eqn:Ez; [|reflexivity]. exfalso. clear -E Hz Ez.
        induction l as [|a l IH]; [contradiction|]. cbn in E. rewrite fold_some in E. destruct (last_some f l) as [?|] eqn:El; [discriminate|].
        destruct Hz as [->|Hz]; [rewrite Ez in E; discriminate|auto].
    + intros (l1 & x' & l2 & E & Hx & F). destruct l1 as [|a l1]; injection E as <- ->.
      * assert (last_some f l2 = None) as ->; [|now rewrite Hx].
        clear -F. induction F as [|z l2 Hz F IH]; [reflexivity|]. cbn. rewrite fold_some, IH, Hz. reflexivity.
      * assert (last_some f (l1 ++ x' :: l2) = Some y) as -> by (apply IH; exists l1, x', l2; auto). reflexivity.
Qed.

Lemma rq_run_state {U} cs (b : request_builder U) :
  let b' := fold_left rq_step cs b in
  qb_headers b' = extend (qb_headers b) (rq_settings cs) /\
  qb_method b' = match last_some rq_method_of cs with Some m => Some m | None => qb_method b end /\
  qb_body b' = match last_some rq_body_of cs with Some m => Some m | None => qb_body b end /\
  qb_url b' = qb_url b.
Proof.
  revert b. induction cs as [|c cs IH]; intros b; cbn [fold_left]; [auto|].
  destruct (IH (rq_step b c)) as (H1 & H2 & H3 & H4). cbn zeta in *. rewrite H1, H2, H3, H4.
  unfold last_some. cbn [fold_left]. rewrite !fold_some. fold (last_some rq_method_of cs) (last_some rq_body_of cs).
  destruct c; cbn [rq_step rq_settings flat_map rq_method_of rq_body_of]; unfold extend; rewrite ?fold_left_app; cbn [rqb_header rqb_headers rqb_body rqb_method qb_headers qb_method qb_body qb_url fold_left app fst snd];
    repeat split; auto; try (destruct (last_some rq_body_of cs); reflexivity); try (destruct (last_some rq_method_of cs); reflexivity).
Qed.

Lemma request_builder_spec {U} (ev : env U) url cs b0 : rqb_try_new ev url = Some b0 ->
  let b := fold_left rq_step cs b0 in
  (forall m, ~ In (QMethod m) cs) /\ rqb_try_build b = None /\ rqb_build b = Panic \/
  exists r, rqb_try_build b = Some r /\ rqb_build b = Ok r /\ url_parse ev url = Some (rq_url r) /\
    (exists c1 c2, cs = c1 ++ QMethod (rq_method r) :: c2 /\ forall m, ~ In (QMethod m) c2) /\
    (forall k v, get k (rq_headers r) = Some v <-> last_set k v (rq_settings cs)) /\
    ((exists c1 c2, cs = c1 ++ QBody (rq_body r) :: c2 /\ forall bd, ~ In (QBody bd) c2) \/
     (forall bd, ~ In (QBody bd) cs) /\ rq_body r = body_empty).
Proof.
  unfold rqb_try_new. destruct (url_parse ev url) as [u|] eqn:Eu; [|discriminate]. cbn [option_map]. intros [= <-].
  cbn zeta. destruct (rq_run_state cs (RqBuilder [] None None u)) as (H1 & H2 & H3 & H4). cbn zeta in *. cbn [qb_headers qb_method qb_body qb_url] in *.
  set (b := fold_left rq_step cs (RqBuilder [] None None u)) in *. unfold rqb_build, rqb_try_build. rewrite H2.
  destruct (last_some rq_method_of cs) as [m|] eqn:Em.
  - right. eexists. split; [reflexivity|]. split; [reflexivity|]. cbn [rq_url rq_method rq_headers rq_body]. rewrite H4, H1, H3. split; [reflexivity|].
    split; [|split].
    + apply last_some_spec in Em as (c1 & x & c2 & -> & Hx & F). destruct x; try discriminate. injection Hx as <-. exists c1, c2. split; [reflexivity|].
      intros m' Hin. rewrite Forall_forall in F. now apply F in Hin.
    + intros k v. rewrite get_extend. cbn [get]. unfold last_set. rewrite <- last_value_spec. destruct (last_value k (rq_settings cs)); split; congruence.
    + destruct (last_some rq_body_of cs) as [bd|] eqn:Eb.
      * left. apply last_some_spec in Eb as (c1 & x & c2 & -> & Hx & F). destruct x; try discriminate. injection Hx as <-. exists c1, c2. split; [reflexivity|].
        intros bd' Hin. rewrite Forall_forall in F. now apply F in Hin.
      * right. split; [|reflexivity]. intros bd Hin. apply in_split in Hin as (c1 & c2 & ->).
        clear -Eb. induction c1 as [|c c1 IH]; cbn in Eb; rewrite fold_some in Eb; destruct (last_some _ _); try discriminate; auto.
  - left. split; [|auto]. intros m Hin. apply in_split in Hin as (c1 & c2 & ->).
    clear -Em. induction c1 as [|c c1 IH]; cbn in Em; rewrite fold_some in Em; destruct (last_some _ _); try discriminate; auto.
Qed.

Inductive rs_call := PHeader (k v : str) | PHeaders (kvs : list (str * str)) | PBody (b : hbody) | PStatus (code : N) (reason : str).
Definition rs_step (b : response_builder) (c : rs_call) : response_builder :=
  match c with
  | PHeader k v => rsb_header k v b | PHeaders kvs => rsb_headers kvs b
  | PBody bd => rsb_body bd b | PStatus c r => rsb_status c r b
  end.
Definition rs_settings (cs : list rs_call) : list (str * str) :=
  flat_map (fun c => match c with PHeader k v => [(k, v)] | PHeaders kvs => kvs | _ => [] end) cs.
Definition rs_body_of (c : rs_call) : option hbody := match c with PBody b => Some b | _ => None end.
Definition rs_status_of (c : rs_call) : option (N * str) := match c with PStatus c r => Some (c, r) | _ => None end.
Lemma rs_run_state cs b :
  let b' := fold_left rs_step cs b in
  pb_headers b' = extend (pb_headers b) (rs_settings cs) /\
  pb_status b' = match last_some rs_status_of cs with Some m => Some (fst m) | None => pb_status b end /\
  pb_reason b' = match last_some rs_status_of cs with Some m => Some (snd m) | None => pb_reason b end /\
  pb_body b' = match last_some rs_body_of cs with Some m => Some m | None => pb_body b end.
Proof.
  revert b. induction cs as [|c cs IH]; intros b; cbn [fold_left]; [auto|].
  destruct (IH (rs_step b c)) as (H1 & H2 & H3 & H4). cbn zeta in *. rewrite H1, H2, H3, H4.
  unfold last_some. cbn [fold_left]. rewrite !fold_some. fold (last_some rs_status_of cs) (last_some rs_body_of cs).
  destruct c; cbn [rs_step rs_settings flat_map rs_status_of rs_body_of]; unfold extend; rewrite ?fold_left_app; cbn [rsb_header rsb_headers rsb_body rsb_status pb_headers pb_status pb_reason pb_body fold_left app fst snd];
    repeat split; auto; try (destruct (last_some rs_body_of cs); reflexivity); try (destruct (last_some rs_status_of cs); reflexivity).
Qed.
Lemma response_builder_spec cs :
  let r := rsb_build (fold_left rs_step cs rsb_new) in
  (forall k v, get k (rs_headers r) = Some v <-> last_set k v (rs_settings cs)) /\
  ((exists c1 c2, cs = c1 ++ PStatus (rs_status r) (rs_reason r) :: c2 /\ forall c x, ~ In (PStatus c x) c2) \/
   (forall c x, ~ In (PStatus c x) cs) /\ rs_status r = 200%N /\ rs_reason r = []) /\
  ((exists c1 c2, cs = c1 ++ PBody (rs_body r) :: c2 /\ forall bd, ~ In (PBody bd) c2) \/
   (forall bd, ~ In (PBody bd) cs) /\ rs_body r = body_empty).
Proof.
  cbn zeta. destruct (rs_run_state cs rsb_new) as (H1 & H2 & H3 & H4). cbn zeta in *. cbn [pb_headers pb_status pb_reason pb_body rsb_new] in *.
  unfold rsb_build. cbn [rs_headers rs_status rs_reason rs_body]. rewrite H1, H2, H3, H4. split; [|split].
  - intros k v. rewrite get_extend. cbn [get]. unfold last_set. rewrite <- last_value_spec. destruct (last_value k (rs_settings cs)); split; congruence.
  - destruct (last_some rs_status_of cs) as [[c x]|] eqn:E.
    + left. apply last_some_spec in E as (c1 & y & c2 & -> & Hx & F). destruct y; try discriminate. injection Hx as <- <-. exists c1, c2. split; [reflexivity|].
      intros c' x' Hin. rewrite Forall_forall in F. now apply F in Hin.
    + right. split; [|auto]. intros c x Hin. apply in_split in Hin as (c1 & c2 & ->).
      clear -E. induction c1 as [|y c1 IH]; cbn in E; rewrite fold_some in E; destruct (last_some _ _); try discriminate; auto.
  - destruct (last_some rs_body_of cs) as [bd|] eqn:E.
    + left. apply last_some_spec in E as (c1 & y & c2 & -> & Hx & F). destruct y; try discriminate. injection Hx as <-. exists c1, c2. split; [reflexivity|].
      intros bd' Hin. rewrite Forall_forall in F. now apply F in Hin.
    + right. split; [|reflexivity]. intros bd Hin. apply in_split in Hin as (c1 & c2 & ->).
      clear -E. induction c1 as [|y c1 IH]; cbn in E; rewrite fold_some in E; destruct (last_some _ _); try discriminate; auto.
Qed.

(* ------------------------------------------------------------------ *)
(** ** Witnesses *)
Definition field_litb (kv : str * str) : bool :=
  negb (str_eqb (fst kv) []) && forallb (fun b => existsb (byte_eqb b) (alnum ++ bs "!#$%&'*+-.^_`|~")) (fst kv) &&
  forallb (fun b => (33 <=? b2n b) && (b2n b <=? 126))%N (snd kv).
Lemma field_lit kv : field_litb kv = true -> field_ok (plain_field kv) /\ is_utf8 (snd kv).
Proof.
  unfold field_litb. rewrite !andb_true_iff, negb_true_iff. intros [[H1 H2] H3]. rewrite forallb_forall in H3.
  assert (forall b, In b (snd kv) -> (33 <= b2n b <= 126)%N) as H4 by (intros b Hb; specialize (H3 b Hb); lia).
  split; [split; [|split; [|split; [|split; [|split; [|split]]]]]|].
  - cbn. intros E. rewrite E in H1. discriminate.
  - cbn. now apply tchars_lit.
  - cbn. repeat constructor.
  - constructor.
  - cbn. apply Forall_forall. intros b Hb. specialize (H4 b Hb). right. left. lia.
  - cbn. intros c v E. assert (In c (snd kv)) as Hc by (rewrite E; now left). specialize (H4 c Hc).
    intros [-> | ->]; vm_compute in H4; intuition congruence.
  - cbn. intros c v E. assert (In c (snd kv)) as Hc by (rewrite E; apply in_or_app; right; now left). specialize (H4 c Hc).
    intros [-> | ->]; vm_compute in H4; intuition congruence.
  - apply valid_utf8_iff. apply valid_utf8_ascii. apply Forall_forall. intros b Hb. specialize (H4 b Hb). lia.
Qed.
Lemma fields_lit hs : forallb field_litb hs = true -> Forall (fun kv => field_ok (plain_field kv) /\ is_utf8 (snd kv)) hs.
Proof. intros H. apply Forall_forall. intros kv Hin. apply field_lit. rewrite forallb_forall in H. auto. Qed.

Definition post_request : request str :=
  Request [(bs "Host", bs "example.org"); (bs "Content-Length", bs "5"); (bs "X-A", bs "b")] Post (body_from_string (bs "hello")) (bs "http://example.org/a/b").
Fixpoint nodupb (l : list str) : bool :=
  match l with [] => true | x :: l' => negb (existsb (str_eqb x) l') && nodupb l' end.
Lemma nodup_lit (l : list str) : nodupb l = true -> NoDup l.
Proof.
  induction l as [|x l IH]; cbn [nodupb]; [constructor|]. rewrite andb_true_iff, negb_true_iff. intros [H1 H2].
  constructor; auto. intros Hin. apply Bool.not_true_iff_false in H1. apply H1. apply existsb_exists. exists x. split; [exact Hin|apply str_eqb_refl].
Qed.
Lemma post_ok : plain_method (rq_method post_request) /\
  Forall target_char (url_path (demo_env (@rev _)) (rq_url post_request)) /\
  writable_headers (rq_headers post_request) /\ only_header (bs "host") (bs "example.org") (rq_headers post_request) /\
  only_header (bs "content-length") (bs "5") (rq_headers post_request) /\
  into_bytes sz1 (rq_body post_request) = Ok (bs "hello").
Proof.
  split; [exact I|]. split; [apply targets_lit; vm_compute; reflexivity|]. split.
  { split; [apply nodup_lit; vm_compute; reflexivity|]. split; [cbn; lia|]. apply fields_lit. vm_compute. reflexivity. }
  split; [|split; [|vm_compute; reflexivity]].
  - exists (bs "Host"). split; [now left|]. split; [reflexivity|].
    intros k' v' [E|[E|[E|[]]]] Hk; injection E as <- <-; vm_compute in Hk; try discriminate Hk; auto.
  - exists (bs "Content-Length"). split; [right; now left|]. split; [reflexivity|].
    intros k' v' [E|[E|[E|[]]]] Hk; injection E as <- <-; vm_compute in Hk; try discriminate Hk; auto.
Qed.
Definition demo_response : response :=
  Response [(bs "Server", bs "puck"); (bs "Content-Type", bs "text/html")] (body_from_string (bs "hello")) 200 (bs "OK").
Lemma demo_response_ok : (100 <= rs_status demo_response <= 999)%N /\ Forall reason_char (rs_reason demo_response) /\
  writable_headers (rs_headers demo_response) /\
  (forall k v, In (k, v) (rs_headers demo_response) -> to_lower k = bs "content-type" -> parse_uint (usize_max 32) v = None) /\
  into_bytes sz1 (rs_body demo_response) = Ok (bs "hello").
Proof.
  split; [cbn; lia|]. split; [apply Forall_cons; [right; vm_compute; split; discriminate|]; apply Forall_cons; [right; vm_compute; split; discriminate|]; constructor|]. split.
  { split; [apply nodup_lit; vm_compute; reflexivity|]. split; [cbn; lia|]. apply fields_lit. vm_compute. reflexivity. }
  split; [|vm_compute; reflexivity].
  intros k v [E|[E|[]]] Hk; injection E as <- <-; [vm_compute in Hk; discriminate Hk|vm_compute; reflexivity].
Qed.

Definition demo_fields : list field := map plain_field (rq_headers post_request).
Lemma demo_head_ok : request_head_ok (bs "POST") (bs "/a/b") demo_fields /\ all_utf8 demo_fields.
Proof.
  destruct post_ok as (_ & _ & (_ & _ & F) & _). split.
  - split; [discriminate|]. split; [apply tchars_lit; vm_compute; reflexivity|]. split; [discriminate|].
    split; [apply targets_lit; vm_compute; reflexivity|]. split; [|cbn; lia]. apply Forall_map. eapply Forall_impl; [|exact F]. now intros kv [H _].
  - apply Forall_map. eapply Forall_impl; [|exact F]. now intros kv [_ H].
Qed.
Lemma demo_sent : sent (demo_env (@rev _)) [Fail EInterrupted; Data (request_head (bs "POST") (bs "/a/b") demo_fields ++ bs "he"); Data (bs "lloGET")]
  (bs "POST") (bs "/a/b") demo_fields (bs "helloGET") [].
Proof.
  split; [apply demo_ok|]. split; [exact httparse_reads_requests|]. split; [apply demo_head_ok|].
  apply dv_intr; [reflexivity|]. change (bs "helloGET") with (bs "he" ++ bs "lloGET"). rewrite app_assoc.
  apply dv_data; [discriminate|]. rewrite <- (app_nil_r (bs "lloGET")). apply dv_data; [discriminate|]. constructor.
Qed.
Lemma demo_spelled : spelled_once (bs "host") demo_fields /\ spelled_once (bs "content-length") demo_fields /\
  last_field (bs "Content-Length") (bs "5") demo_fields /\ last_field (bs "Host") (bs "example.org") demo_fields.
Proof.
  assert (forall name, forallb (fun f => forallb (fun g => implb (str_eqb (to_lower (f_name f)) name && str_eqb (to_lower (f_name g)) name) (str_eqb (f_name f) (f_name g))) demo_fields) demo_fields = true -> spelled_once name demo_fields) as H.
  { intros name H f g Hf Hg E1 E2. rewrite forallb_forall in H. specialize (H f Hf). rewrite forallb_forall in H. specialize (H g Hg).
    rewrite E1, E2, !str_eqb_refl in H. cbn in H. now apply str_eqb_eq in H. }
  split; [apply H; vm_compute; reflexivity|]. split; [apply H; vm_compute; reflexivity|].
  split; apply last_field_value; vm_compute; reflexivity.
Qed.
