(** C105: requests are routed by their target. C106: paths that reach matchers and the wire.
    The crate [url] is assumed to implement the URL Standard for http and https ([UrlSpec]). *)
From Verif Require Import Base Num HMap Io IoProofs Utf8 HttpSpec HttpModel HttpProofs3 HttpLemmas HttpLemmas2 Httparse RouterModel RouterProofs UrlSpec UrlProofs.
From Coq Require Import Lia.

Definition url_standard {U} (ev : env U) : Prop := forall s t u, s = bs "http://" ++ t \/ s = bs "https://" ++ t -> url_parse ev s = Some u ->
  url_path ev u = flat_map (fun p => bs "/" ++ p) (url_path_segments s) /\ url_segments ev u = Some (url_path_segments s).

(** Not vacuous: an environment that takes its URLs from the standard. *)
Definition std_env : env str :=
  Env httparse_request httparse_response
      (fun s => if (starts_with (bs "http://") s || starts_with (bs "https://") s) && negb (str_eqb (authority s) []) then Some s else None)
      url_path_text (fun u => Some (url_path_segments u)) (@rev _) 32 (2 ^ 31 - 1).
Lemma std_env_standard : url_standard std_env /\ env_ok std_env.
Proof.
  split; [|intros m _; apply Permutation.Permutation_rev].
  intros s t u H. unfold std_env. cbn [url_parse url_path url_segments]. destruct (_ && _); [|discriminate]. intros [= <-]. split; reflexivity.
Qed.
Example url_standard_examples :
  url_path_segments (bs "http://h/a/../b/./%2E%2e/c d?q/#/r") = [bs "c%20d"] /\ url_path_segments (bs "http://h") = [[]] /\ url_path_segments (bs "http:///x\y/..") = [[]] /\
  url_path_segments (bs "https://u:p@h:80/a//b/") = [bs "a"; []; bs "b"; []].
Proof. repeat split; vm_compute; reflexivity. Qed.

Lemma target_visible s : Forall target_char s -> Forall (fun b => (32 < b2n b)%N) s.
Proof.
  apply Forall_impl. intros b H. unfold target_char in H.
  assert (forallb (fun c => (32 <? b2n c)%N) (alnum ++ bs "-._~:/?#[]@!$&'()*+,;=%") = true) as F by (vm_compute; reflexivity).
  rewrite forallb_forall in F. apply F in H. lia.
Qed.
Lemma sent_url {U} (ev : env U) s meth t fs rest tail k host r :
  sent ev s meth (bs "/" ++ t) fs rest tail -> all_utf8 fs -> last_field k host fs -> to_lower k = bs "host" -> spelled_once (bs "host") fs ->
  request_parse ev s = Ok (Some r) -> url_parse ev (bs "http://" ++ host ++ bs "/" ++ t) = Some (rq_url r).
Proof.
  intros Hs Hu Hl Hk Ho E. destruct (url_from_target ev s meth (bs "/" ++ t) fs rest tail k host Hs Hu Hl Hk Ho) as (H1 & H2 & _).
  assert (addressed host meth (bs "/" ++ t) (bs "http://" ++ host ++ bs "/" ++ t)) as A by (eapply origin_form; reflexivity).
  destruct (url_parse ev (bs "http://" ++ host ++ bs "/" ++ t)) as [u|] eqn:Eu.
  - destruct (H1 _ u A Eu) as (r' & E' & Er & _). congruence.
  - rewrite (H2 _ A Eu) in E. discriminate.
Qed.

(* ------------------------------------------------------------------ *)
(** ** C105 *)
(** If the Host field holds nothing but a host, the target alone decides which matchers accept the request. *)
Theorem C105_target_decides_partial : forall U (ev : env U) s meth t fs rest tail k host r,
  url_standard ev -> sent ev s meth (bs "/" ++ t) fs rest tail -> all_utf8 fs ->
  last_field k host fs -> to_lower k = bs "host" -> spelled_once (bs "host") fs -> host_only host ->
  request_parse ev s = Ok (Some r) ->
  url_segments ev (rq_url r) = Some (target_segments (bs "/" ++ t)) /\
  url_path ev (rq_url r) = flat_map (fun p => bs "/" ++ p) (target_segments (bs "/" ++ t)) /\
  forall pattern, does_match ev (fold_left match_at pattern match_new) (rq_url r) = true <->
    Forall2 (fun e a => match e with Static p => a = p | Param => True | IntParam => i32_literal a end) pattern (target_segments (bs "/" ++ t)).
Proof.
  intros U ev s meth t fs rest tail k host r Hstd Hs Hu Hl Hk Ho Hh E.
  pose proof (sent_url ev s meth t fs rest tail k host r Hs Hu Hl Hk Ho E) as Eu.
  destruct (Hstd _ _ _ (or_introl eq_refl) Eu) as [Hp Hseg].
  assert (Forall (fun b => (32 < b2n b)%N) (bs "/" ++ t)) as Hv by (apply target_visible; apply Hs).
  rewrite (segments_host host (bs "/" ++ t) Hh Hv) in Hp, Hseg by (right; exists x2f, t; auto).
  split; [exact Hseg|]. split; [exact Hp|]. intros pattern. rewrite (does_match_spec ev pattern (rq_url r)). rewrite Hseg. split.
  - intros (parts & [= <-] & H). exact H.
  - intros H. eexists. split; [reflexivity|exact H].
Qed.
Print Assumptions C105_target_decides_partial.
(** What the target says: ordinary segments stand for themselves, whatever query or fragment follows. *)
Theorem C105_ordinary_targets : forall segs q, segs <> [] -> Forall own_segment segs -> (q = [] \/ exists t, q = bs "?" ++ t \/ q = bs "#" ++ t) ->
  target_segments (flat_map (fun p => bs "/" ++ p) segs ++ q) = segs.
Proof.
  intros segs q Hne H Hq. apply target_own; auto. destruct Hq as [->|(t & [->| ->])]; [now left|right; exists x3f, t; auto|right; exists x23, t; auto].
Qed.
Print Assumptions C105_ordinary_targets.

(** But a Host field with a slash in it puts its own segments in front of those of the target: no request of this kind is
    routed by its target. *)
Theorem C105_segments_in_host_refuted : forall U (ev : env U) s meth segs q fs rest tail k h hsegs r,
  url_standard ev -> sent ev s meth (flat_map (fun p => bs "/" ++ p) segs ++ q) fs rest tail -> all_utf8 fs ->
  segs <> [] -> Forall own_segment segs -> (q = [] \/ exists t, q = bs "?" ++ t \/ q = bs "#" ++ t) ->
  host_only h -> hsegs <> [] -> Forall own_segment hsegs ->
  last_field k (h ++ flat_map (fun p => bs "/" ++ p) hsegs) fs -> to_lower k = bs "host" -> spelled_once (bs "host") fs ->
  request_parse ev s = Ok (Some r) ->
  url_segments ev (rq_url r) = Some (hsegs ++ segs) /\ hsegs ++ segs <> segs.
Proof.
  intros U ev s meth segs q fs rest tail k h hsegs r Hstd Hs Hu Hne Hown Hq Hh Hne2 Hown2 Hl Hk Ho E.
  assert (exists t, flat_map (fun p => bs "/" ++ p) segs ++ q = bs "/" ++ t) as (t & Et) by (destruct segs as [|x segs]; [congruence|]; cbn [flat_map]; rewrite <- !app_assoc; eauto).
  assert (Forall (fun b => (32 < b2n b)%N) (bs "/" ++ t)) as Hv by (apply target_visible; rewrite <- Et; apply Hs).
  pose proof Hs as Hs'. rewrite Et in Hs'.
  pose proof (sent_url ev s meth t fs rest tail k _ r Hs' Hu Hl Hk Ho E) as Eu.
  destruct (Hstd _ _ _ (or_introl eq_refl) Eu) as [_ Hseg]. split.
  - rewrite Hseg. f_equal. rewrite <- Et, <- (app_assoc h).
    rewrite segments_host; [|exact Hh| |].
    + rewrite app_assoc. fold (segs_text hsegs) (segs_text segs). unfold segs_text. rewrite <- flat_map_app. apply (target_own (hsegs ++ segs) q).
      * destruct hsegs; [congruence|discriminate].
      * apply Forall_app. auto.
      * destruct Hq as [->|(t' & [->| ->])]; [now left|right; exists x3f, t'; auto|right; exists x23, t'; auto].
    + apply Forall_app. split; [|rewrite Et; exact Hv]. clear -Hown2. induction Hown2 as [|p l [Hp _] Hl IH]; [constructor|]. cbn [flat_map]. apply Forall_app. split; [|exact IH]. constructor; [vm_compute; reflexivity|]. eapply Forall_impl; [|exact Hp]. intros b [_ Hb]. unfold path_encoded in Hb. rewrite !orb_false_iff in Hb. lia.
    + right. destruct hsegs as [|x hsegs]; [congruence|]. exists x2f. cbn [flat_map]. rewrite <- !app_assoc. eexists. split; [reflexivity|auto].
  - intros Heq. apply (f_equal (@length str)) in Heq. rewrite app_length in Heq. destruct hsegs; [congruence|]. cbn in Heq. lia.
Qed.
Print Assumptions C105_segments_in_host_refuted.
(** A Host field with a question mark or a number sign sends every request to the root, whatever its target. *)
Theorem C105_query_in_host : forall U (ev : env U) s meth t fs rest tail k h c x r,
  url_standard ev -> sent ev s meth (bs "/" ++ t) fs rest tail -> all_utf8 fs ->
  host_only h -> c = bs "?" \/ c = bs "#" -> Forall (fun b => (32 < b2n b)%N) x ->
  last_field k (h ++ c ++ x) fs -> to_lower k = bs "host" -> spelled_once (bs "host") fs ->
  request_parse ev s = Ok (Some r) -> url_segments ev (rq_url r) = Some [[]].
Proof.
  intros U ev s meth t fs rest tail k h c x r Hstd Hs Hu Hh Hc Hx Hl Hk Ho E.
  assert (Forall (fun b => (32 < b2n b)%N) (bs "/" ++ t)) as Hv by (apply target_visible; apply Hs).
  pose proof (sent_url ev s meth t fs rest tail k _ r Hs Hu Hl Hk Ho E) as Eu.
  destruct (Hstd _ _ _ (or_introl eq_refl) Eu) as [_ ->]. f_equal. rewrite <- !app_assoc.
  rewrite segments_host; [|exact Hh| |].
  - destruct Hc as [-> | ->]; reflexivity.
  - apply Forall_app. split; [destruct Hc as [-> | ->]; repeat constructor|]. apply Forall_app. auto.
  - right. destruct Hc as [-> | ->]; [exists x3f|exists x23]; eexists; (split; [reflexivity|auto]).
Qed.
Print Assumptions C105_query_in_host.
(** With an empty Host field (which RFC 7230 5.4 allows) the first segment of the target is taken for the host. *)
Theorem C105_empty_host : forall U (ev : env U) s meth a segs q fs rest tail k r,
  url_standard ev -> sent ev s meth (flat_map (fun p => bs "/" ++ p) (a :: segs) ++ q) fs rest tail -> all_utf8 fs ->
  host_only a -> segs <> [] -> Forall own_segment segs -> (q = [] \/ exists t, q = bs "?" ++ t \/ q = bs "#" ++ t) ->
  last_field k [] fs -> to_lower k = bs "host" -> spelled_once (bs "host") fs ->
  request_parse ev s = Ok (Some r) -> url_segments ev (rq_url r) = Some segs.
Proof.
  intros U ev s meth a segs q fs rest tail k r Hstd Hs Hu Ha Hne Hown Hq Hl Hk Ho E.
  set (R := flat_map (fun p => bs "/" ++ p) segs ++ q).
  assert (flat_map (fun p => bs "/" ++ p) (a :: segs) ++ q = bs "/" ++ a ++ R) as Et by (cbn [flat_map]; unfold R; now rewrite <- !app_assoc).
  assert (Forall (fun b => (32 < b2n b)%N) (bs "/" ++ a ++ R)) as Hv by (apply target_visible; rewrite <- Et; apply Hs).
  rewrite Et in Hs. pose proof (sent_url ev s meth (a ++ R) fs rest tail k _ r Hs Hu Hl Hk Ho E) as Eu.
  destruct (Hstd _ _ _ (or_introl eq_refl) Eu) as [_ ->]. f_equal. cbn [app].
  assert (url_path_segments (bs "http://" ++ bs "/" ++ a ++ R) = url_path_segments (bs "http://" ++ a ++ R)) as ->.
  { apply Forall_app in Hv as [_ Hv]. unfold url_path_segments, raw_segments, raw_path.
    rewrite !cleaned_id; [|apply Forall_app; split; [repeat constructor|exact Hv]|apply Forall_app; split; [repeat constructor|apply Forall_app; split; [repeat constructor|exact Hv]]]. reflexivity. }
  rewrite segments_host; [|exact Ha| |].
  - unfold R. apply target_own; auto. destruct Hq as [->|(t' & [->| ->])]; [now left|right; exists x3f, t'; auto|right; exists x23, t'; auto].
  - apply Forall_app in Hv as [_ Hv]. apply Forall_app in Hv as [_ Hv]. exact Hv.
  - right. destruct segs as [|x segs]; [congruence|]. exists x2f. unfold R. cbn [flat_map]. rewrite <- !app_assoc. eexists. split; [reflexivity|auto].
Qed.
Print Assumptions C105_empty_host.

(** Not vacuous: a GET for /a/b with the Host fields of the four theorems; in the last three cases it is routed to
    /admin/a/b, / and /b. *)
Definition to_pairs (h : str) : list (str * str) := [(bs "Host", h)].
Definition to_host (h : str) : list field := map plain_field (to_pairs h).
Lemma to_host_ok h : forallb field_litb (to_pairs h) = true -> forall U (ev : env U), reads_requests (parse_head_req ev) -> env_ok ev ->
  sent ev [Data (request_head (bs "GET") (bs "/a/b") (to_host h) ++ [])] (bs "GET") (bs "/a/b") (to_host h) [] [] /\ all_utf8 (to_host h) /\
  last_field (bs "Host") h (to_host h) /\ to_lower (bs "Host") = bs "host" /\ spelled_once (bs "host") (to_host h).
Proof.
  intros H U ev Hr He. pose proof (fields_lit _ H) as F. split.
  - split; [exact He|]. split; [exact Hr|]. split.
    + split; [discriminate|]. split; [apply tchars_lit; vm_compute; reflexivity|]. split; [discriminate|]. split; [apply targets_lit; vm_compute; reflexivity|].
      split; [|cbn; lia]. apply Forall_map. eapply Forall_impl; [|exact F]. now intros kv [K _].
    + rewrite <- (app_nil_r (_ ++ [])) at 2. apply dv_data; [discriminate|constructor].
  - split; [apply Forall_map; eapply Forall_impl; [|exact F]; intros [k v] [_ K]; exact K|]. split; [apply last_field_value; vm_compute; reflexivity|].
    split; [reflexivity|]. intros f g [<-|[]] [<-|[]] _ _. reflexivity.
Qed.
Example C105_examples : url_standard std_env /\ reads_requests (parse_head_req std_env) /\ env_ok std_env /\
  Forall (fun hp => forallb field_litb (to_pairs (fst hp)) = true /\
      exists r, request_parse std_env [Data (request_head (bs "GET") (bs "/a/b") (to_host (fst hp)) ++ [])] = Ok (Some r) /\ url_segments std_env (rq_url r) = Some (snd hp))
    [(bs "h:80", [bs "a"; bs "b"]); (bs "h/admin", [bs "admin"; bs "a"; bs "b"]); (bs "h?x", [[]]); ([], [bs "b"])] /\
  host_only (bs "h:80") /\ host_only (bs "a") /\ Forall own_segment [bs "a"; bs "b"; bs "admin"].
Proof.
  destruct std_env_standard as [H1 H2]. split; [exact H1|]. split; [exact httparse_reads_requests|]. split; [exact H2|]. split.
  - repeat (apply Forall_cons; [split; [vm_compute; reflexivity|]; eexists; split; [vm_compute; reflexivity|vm_compute; reflexivity]|]). constructor.
  - split; [split; [discriminate|repeat constructor]|]. split; [split; [discriminate|repeat constructor]|].
    repeat (apply Forall_cons; [split; [repeat constructor|intros [D|D]; vm_compute in D; discriminate]|]). constructor.
Qed.

(* ------------------------------------------------------------------ *)
(** ** C106 *)
(** Bytes of a path: visible ASCII, and none of slash, backslash, quotation mark, #, <, >, ?, `, {, }. *)
Definition path_ok (b : byte) : Prop := (33 <= b2n b <= 126)%N /\ ~ In b (bs "/\""#<>?`{}").
Lemma path_byte_ok b : path_byte b -> path_ok b.
Proof.
  intros (H1 & H2 & H3). split; [exact H1|]. intros Hi. cbn in Hi. repeat destruct Hi as [<-|Hi]; try discriminate; contradiction.
Qed.
(** However a request is written, the path its matchers see is made of such bytes, and no segment is "." or "..", plain or
    percent-encoded: a handler that joins them onto a directory stays inside it. *)
Theorem C106_no_dot_segments : forall U (ev : env U) s r, url_standard ev -> request_parse ev s = Ok (Some r) ->
  exists segs, segs <> [] /\ url_segments ev (rq_url r) = Some segs /\ url_path ev (rq_url r) = flat_map (fun p => bs "/" ++ p) segs /\
    Forall (fun p => Forall path_ok p /\ ~ In (to_lower p) [bs "."; bs "%2e"; bs ".."; bs ".%2e"; bs "%2e."; bs "%2e%2e"]) segs.
Proof.
  intros U ev s r Hstd E. destruct (parsed_has_host ev s r E) as (k & host & meth & target & uri & _ & _ & A & Eu).
  assert (exists t, uri = bs "http://" ++ t \/ uri = bs "https://" ++ t) as (t & Ht) by (destruct A as [t [->| ->]|t _|_ _]; eauto).
  destruct (Hstd uri t _ Ht Eu) as [Hp Hseg]. exists (url_path_segments uri). destruct (path_segments_fine uri) as [Hne Hf]. split; [exact Hne|]. split; [exact Hseg|]. split; [exact Hp|].
  eapply Forall_impl; [|exact Hf]. intros p [Hd Hb]. split; [eapply Forall_impl; [|exact Hb]; intros b; apply path_byte_ok|].
  intros Hi. apply Hd. unfold dot_segment, one_dot, two_dots. cbn [In] in Hi. repeat (destruct Hi as [<-|Hi]; [vm_compute; auto|]). contradiction.
Qed.
Print Assumptions C106_no_dot_segments.
(** The same for a URL given to the request builder; and so the request line of every such request that is written is one
    line of three words. *)
Theorem C106_request_line : forall U (ev : env U) sz s t b cs r, url_standard ev -> s = bs "http://" ++ t \/ s = bs "https://" ++ t ->
  rqb_try_new ev s = Some b -> rqb_build (fold_left rq_step cs b) = Ok r -> forall out res, request_write ev sz r None = (out, res) ->
  exists path after, Forall (fun c => (33 <= b2n c <= 126)%N) path /\ (exists p, path = bs "/" ++ p) /\
    out = method_text (rq_method r) ++ bs " " ++ path ++ bs " HTTP/1.1" ++ CRLF ++ after.
Proof.
  intros U ev sz s t b cs r Hstd Hs Hb Hr out res Ew.
  destruct (request_builder_spec ev s cs b Hb) as [(_ & _ & D)|(r' & _ & Er & Eu & _)]; [congruence|].
  assert (r' = r) as -> by congruence.
  destruct (Hstd s t _ Hs Eu) as [Hp _]. destruct (path_segments_fine s) as [Hne Hf].
  unfold request_write in Ew. rewrite Hp in Ew. destruct (drain sz (rq_body r)) as [chunks [copied b']].
  rewrite write_calls_none in Ew. injection Ew as <- _.
  exists (flat_map (fun p => bs "/" ++ p) (url_path_segments s)). eexists. split; [|split].
  - clear -Hf. induction Hf as [|p l [_ Hp] Hl IH]; [constructor|]. cbn [flat_map]. apply Forall_app. split; [|exact IH]. constructor; [vm_compute; split; discriminate|]. eapply Forall_impl; [|exact Hp]. intros c H. apply H.
  - destruct (url_path_segments s) as [|x l]; [congruence|]. cbn [flat_map]. rewrite <- app_assoc. eauto.
  - cbn [app concat]. rewrite !concat_app, <- !app_assoc. cbn [concat]. unfold CRLF. change (bs "HTTP/1.1" ++ [x0d; x0a]) with (bs "HTTP/1.1" ++ [x0d; x0a]). reflexivity.
Qed.
Print Assumptions C106_request_line.

Example C106_example : exists b r out, rqb_try_new std_env (bs "http://h/a b/../x y?q") = Some b /\
  rqb_build (fold_left rq_step [QMethod Get; QHeader (bs "Host") (bs "h")] b) = Ok r /\
  request_write std_env sz1 r None = (bs "GET /x%20y HTTP/1.1" ++ CRLF ++ out, Ok tt) /\
  exists r', request_parse std_env [Data (request_head (bs "GET") (bs "/%2e./a{b}\c") (to_host (bs "h")))] = Ok (Some r') /\
    url_segments std_env (rq_url r') = Some [bs "a%7Bb%7D"; bs "c"].
Proof.
  do 3 eexists. split; [vm_compute; reflexivity|]. split; [vm_compute; reflexivity|]. split; [vm_compute; reflexivity|].
  eexists. split; vm_compute; reflexivity.
Qed.
