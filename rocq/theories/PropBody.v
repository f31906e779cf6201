(** C108: bodies that break off. *)
From Coq Require Import Sorting.Sorted.
From Verif Require Import Base HMap Num Utf8 Io IoProofs HttpModel HttpSpec Httparse HttpProofs HttpProofs2 HttpProofs3 HttpProofs4 HttpLemmas HttpLemmas2 PropHttp PropHttp3.
Ltac Zify.zify_post_hook ::= Z.div_mod_to_equations.

Lemma delivers_nil_fail s t : delivers true s [] (Fail EOther :: t) -> forall n, 0 < n ->
  (exists s', raw_read n s = (Err EOther, s')) \/
  (exists s', raw_read n s = (Err EInterrupted, s') /\ delivers true s' [] (Fail EOther :: t) /\ stream_size s' < stream_size s).
Proof.
  intros H n Hn. remember ([] : str) as e eqn:He. remember (Fail EOther :: t) as r eqn:Hr. destruct H as [rest|d s bytes rest Hd H|s bytes rest Hi H]; subst.
  - left. eexists. reflexivity.
  - exfalso. apply Hd. now apply app_eq_nil in He as [-> _].
  - right. exists s. split; [reflexivity|]. split; [exact H|]. apply Nat.lt_succ_diag_r.
Qed.
Lemma br_read_rep_fail n b t : rep true b [] (Fail EOther :: t) -> 0 < n -> 0 < br_cap b ->
  (exists b', br_read n b = (Err EOther, b')) \/
  (exists b', br_read n b = (Err EInterrupted, b') /\ rep true b' [] (Fail EOther :: t) /\ br_cap b' = br_cap b /\ br_size b' < br_size b).
Proof.
  intros (bytes & E & Hd) Hn Hc. symmetry in E. apply app_eq_nil in E as [Hb ->].
  destruct b as [buf cap s]. cbn [br_buf br_cap br_in] in *. subst buf. unfold br_read, br_fill, br_size. cbn [br_buf br_cap br_in andb].
  destruct (Nat.leb_spec cap n) as [L|L]; cbn [andb].
  - destruct (delivers_nil_fail s t Hd n Hn) as [(s' & ->)|(s' & -> & H1 & H2)]; [left; eexists; reflexivity|].
    right. eexists. split; [reflexivity|]. cbn [br_buf br_cap br_in]. split; [exists []; auto|]. split; [reflexivity|]. cbn. lia.
  - destruct (delivers_nil_fail s t Hd cap Hc) as [(s' & ->)|(s' & -> & H1 & H2)]; [left; eexists; reflexivity|].
    right. eexists. split; [reflexivity|]. cbn [br_buf br_cap br_in]. split; [exists []; auto|]. split; [reflexivity|]. cbn. lia.
Qed.

(** More is wanted than what comes before the failure. *)
Definition wants_more (left : option N) (rem : str) : Prop := match left with None => True | Some n => (N.of_nat (length rem) < n)%N end.
Lemma drain_loop_fails fuel sz i b rem t :
  positive sz -> rep true (b_reader b) rem (Fail EOther :: t) -> 0 < br_cap (b_reader b) -> body_sound b ->
  wants_more (body_left b) rem -> br_size (b_reader b) < fuel ->
  exists ds b', drain_loop fuel sz i br_read b = (ds, (Err EOther, b')) /\ concat ds = rem.
Proof.
  intros Hsz. revert i b rem. induction fuel as [|fuel IH]; intros i b rem Hrep Hcap Hs Hlim Hf; [lia|].
  cbn [drain_loop]. rewrite body_read_eq by exact Hs.
  destruct (match body_left b with Some 0%N => true | _ => false end) eqn:Hz.
  { exfalso. destruct (body_left b) as [[|p]|]; try discriminate. cbn in Hlim. lia. }
  set (req := request_size (body_left b) (sz i)).
  assert (0 < req) as Hreq.
  { unfold req, request_size. pose proof (Hsz i). destruct (body_left b) as [[|p]|]; [discriminate|lia|lia]. }
  assert (forall b1 d, length d <= req -> body_sound (body_after b b1 d) /\
            body_left (body_after b b1 d) = option_map (fun n => (n - N.of_nat (length d))%N) (body_left b)) as Haft.
  { intros b1 d Hd. unfold req, request_size in Hd. unfold body_sound, body_left, body_after in *. cbn.
    destruct (b_length b) as [len|]; [|auto]. split; [lia|]. cbn. f_equal. lia. }
  assert (forall r', rep true r' rem (Fail EOther :: t) -> br_cap r' = br_cap (b_reader b) -> br_size r' < br_size (b_reader b) ->
     exists ds b', drain_loop fuel sz (S i) br_read (body_after b r' []) = (ds, (Err EOther, b')) /\ concat ds = rem) as Hint.
  { intros r' Hr' Hc' Hsize. destruct (Haft r' [] ltac:(cbn; lia)) as [S1 L1]. apply IH; auto.
    - cbn. congruence.
    - rewrite L1. destruct (body_left b); cbn in *; [lia|exact I].
    - cbn [b_reader body_after]. lia. }
  destruct rem as [|c0 rem0].
  { destruct (br_read_rep_fail req (b_reader b) t Hrep Hreq Hcap) as [(b' & E)|(b' & E & Hr' & Hc' & Hsize)]; rewrite E.
    - do 2 eexists. split; reflexivity.
    - now apply Hint. }
  set (rem := c0 :: rem0) in *.
  pose proof (br_read_any req (b_reader b)) as [_ Hany].
  pose proof (br_read_rep true req (b_reader b) rem _ Hrep ltac:(discriminate) Hreq Hcap) as [Hcap' Hcase].
  destruct (br_read req (b_reader b)) as [r b1] eqn:E. cbn [fst snd] in *.
  destruct Hcase as [(k & Hk & Hkl & -> & Hr1) | (_ & -> & Hr1 & Hb0 & Hb1 & Hzz)].
  - destruct (firstn k rem) as [|y d] eqn:Hd.
    { apply (f_equal (@length _)) in Hd. rewrite firstn_length in Hd. cbn in Hd. lia. }
    assert (length (y :: d) = k) as Hlen by (rewrite <- Hd, firstn_length; lia).
    destruct Hany as [(d' & [= <-] & Hdl & Hsize) | (e & He & _)]; [|discriminate].
    destruct (Haft b1 (y :: d) Hdl) as [Hs' Hleft'].
    destruct (IH (S i) (body_after b b1 (y :: d)) (skipn k rem)) as (ds & b' & E' & Hc).
    + exact Hr1.
    + cbn. lia.
    + exact Hs'.
    + rewrite Hleft'. destruct (body_left b) as [n|]; cbn [wants_more option_map] in Hlim |- *; [|exact I]. rewrite skipn_length, Hlen. lia.
    + unfold br_size in *. cbn [b_reader body_after]. rewrite Hlen in Hsize. lia.
    + rewrite E'. do 2 eexists. split; [reflexivity|]. cbn [concat]. rewrite Hc, <- Hd. apply firstn_skipn.
  - destruct Hany as [(d & Hd & _)|(e & _ & Hsize)]; [discriminate|]. now apply Hint.
Qed.
Lemma drain_fails sz b rem t : positive sz -> rep true (b_reader b) rem (Fail EOther :: t) -> 0 < br_cap (b_reader b) -> body_sound b ->
  wants_more (body_left b) rem -> exists ds b', drain sz b = (ds, (Err EOther, b')) /\ concat ds = rem.
Proof. intros. eapply drain_loop_fails; eauto. Qed.
Lemma reader_fails sz rd len rest t : positive sz -> rep true rd rest (Fail EOther :: t) -> 0 < br_cap rd -> wants_more len rest ->
  exists ds b', drain sz (body_from_reader rd len) = (ds, (Err EOther, b')) /\ concat ds = rest.
Proof.
  intros H1 H2 H3 H4. eapply drain_fails; eauto.
  - unfold body_sound, body_from_reader. cbn. destruct len; [lia|exact I].
  - unfold body_left, body_from_reader. cbn. destruct len; [now rewrite N.sub_0_r|exact I].
Qed.

(** ** Specification *)
(** The field called [name] (in some spelling) announces more than [rest], or does not announce a length at all. *)
Definition more_to_come (name : str) (bits : N) (fs : list field) (rest : str) : Prop :=
  forall f n, In f fs -> to_lower (f_name f) = name -> numeral bits (f_value f) n -> (N.of_nat (length rest) < n)%N.
Definition request_lines {U} (ev : env U) (r : request U) : str :=
  method_text (rq_method r) ++ bs " " ++ url_path ev (rq_url r) ++ bs " HTTP/1.1" ++ CRLF ++
  flat_map (fun kv => fst kv ++ bs ": " ++ snd kv ++ CRLF) (rq_headers r) ++ CRLF.
Definition response_lines (r : response) (hs : list (str * str)) : str :=
  bs "HTTP/1.1 " ++ dec (rs_status r) ++ bs " " ++ rs_reason r ++ CRLF ++ flat_map (fun kv => fst kv ++ bs ": " ++ snd kv ++ CRLF) hs ++ CRLF.

(** ** C108. A body is passed on as a whole or an error is reported. *)
Lemma write_shape {U} (ev : env U) sz r ds (copied : res ioerr unit) b' : drain sz (rq_body r) = (ds, (copied, b')) ->
  request_write ev sz r None = (request_lines ev r ++ concat ds, copied).
Proof.
  intros E. unfold request_write. rewrite E, write_calls_none. f_equal. unfold request_lines. cbn [app concat]. rewrite !concat_app. cbn [concat app].
  change (fun kv : str * str => fst kv ++ bs ": " ++ snd kv ++ CRLF) with header_line. rewrite flat_map_concat_map, <- !app_assoc. reflexivity.
Qed.
Lemma encode_shape sz r ds (copied : res ioerr unit) b' : drain sz (rs_body r) = (ds, (copied, b')) ->
  encode sz r None = (response_lines r (sort_headers (rs_headers r)) ++ concat ds, copied).
Proof.
  intros E. unfold encode. rewrite E, write_calls_none. f_equal. unfold response_lines. cbn [app concat]. rewrite !concat_app. cbn [concat app].
  change (fun kv : str * str => fst kv ++ bs ": " ++ snd kv ++ CRLF) with header_line. rewrite flat_map_concat_map, <- !app_assoc. reflexivity.
Qed.
(** Writing succeeds only with the whole body read and written; if reading it fails, so does writing, with the same error. *)
Theorem C108_written_whole : forall U (ev : env U) sz (r : request U) (q : response) budget,
  (snd (request_write ev sz r budget) = Ok tt <->
     exists content, into_bytes sz (rq_body r) = Ok content /\ fst (request_write ev sz r budget) = request_lines ev r ++ content) /\
  (snd (encode sz q budget) = Ok tt <->
     exists content hs, into_bytes sz (rs_body q) = Ok content /\ Permutation hs (rs_headers q) /\ fst (encode sz q budget) = response_lines q hs ++ content) /\
  (forall e, into_bytes sz (rq_body r) = Err e -> snd (request_write ev sz r None) = Err e) /\
  (forall e, into_bytes sz (rs_body q) = Err e -> snd (encode sz q None) = Err e).
Proof.
  intros U ev sz r q budget.
  assert (forall b : hbody, into_bytes sz b = match snd (drain sz b) with (Ok _, _) => Ok (concat (fst (drain sz b))) | (Err e, _) => Err e | (Panic, _) => Panic | (OutOfFuel, _) => OutOfFuel end) as Hi.
  { intros b. unfold into_bytes. destruct (drain sz b) as [ds [[[]|e| |] b']]; reflexivity. }
  rewrite !Hi. destruct (drain sz (rq_body r)) as [ds [c1 b1]] eqn:E1. destruct (drain sz (rs_body q)) as [dq [c2 b2]] eqn:E2. cbn [fst snd].
  pose proof (write_shape ev sz r ds c1 b1 E1) as W1. pose proof (encode_shape sz q dq c2 b2 E2) as W2.
  assert (forall n, request_write ev sz r (Some n) = (firstn n (request_lines ev r ++ concat ds), if Nat.leb (length (request_lines ev r ++ concat ds)) n then c1 else Err EOther)) as B1.
  { intros n. revert W1. unfold request_write. rewrite E1, write_calls_none, write_calls_some. now intros [= <-]. }
  assert (forall n, encode sz q (Some n) = (firstn n (response_lines q (sort_headers (rs_headers q)) ++ concat dq),
    if Nat.leb (length (response_lines q (sort_headers (rs_headers q)) ++ concat dq)) n then c2 else Err EOther)) as B2.
  { intros n. apply encode_failing. exact W2. }
  assert (forall hs, Permutation hs (rs_headers q) -> length (response_lines q hs) = length (response_lines q (sort_headers (rs_headers q)))) as Hl.
  { intros hs P. unfold response_lines. rewrite !app_length. do 6 f_equal.
    apply Permutation_length, Permutation_flat_map. rewrite P. apply sort_headers_perm. }
  split; [|split; [|split]].
  - destruct budget as [n|]; [rewrite B1|rewrite W1]; cbn [fst snd].
    + destruct (Nat.leb_spec (length (request_lines ev r ++ concat ds)) n) as [L|L].
      * rewrite firstn_all2 by lia. destruct c1 as [[]|e| |]; split; try discriminate; try (intros (c & H & _); discriminate H); [eauto|reflexivity].
      * split; [discriminate|]. intros (c & H & Hf). destruct c1 as [[]|e| |]; try discriminate. injection H as <-.
        apply (f_equal (@length _)) in Hf. rewrite firstn_length in Hf. lia.
    + destruct c1 as [[]|e| |]; split; try discriminate; try (intros (c & H & _); discriminate H); [eauto|reflexivity].
  - assert (Permutation (sort_headers (rs_headers q)) (rs_headers q)) as Hp by (symmetry; apply sort_headers_perm).
    destruct budget as [n|]; [rewrite B2|rewrite W2]; cbn [fst snd].
    + destruct (Nat.leb_spec (length (response_lines q (sort_headers (rs_headers q)) ++ concat dq)) n) as [L|L].
      * rewrite firstn_all2 by lia. destruct c2 as [[]|e| |]; split; try discriminate; try (intros (c & h & H & _); discriminate H); [eauto|reflexivity].
      * split; [discriminate|]. intros (c & h & H & P & Hf). destruct c2 as [[]|e| |]; try discriminate. injection H as <-.
        apply (f_equal (@length _)) in Hf. rewrite firstn_length, !app_length, (Hl h P) in Hf. rewrite app_length in L. lia.
    + destruct c2 as [[]|e| |]; split; try discriminate; try (intros (c & h & H & _); discriminate H); [eauto|reflexivity].
  - intros e He. rewrite W1. cbn [snd]. destruct c1 as [[]|e'| |]; try discriminate. now injection He as <-.
  - intros e He. rewrite W2. cbn [snd]. destruct c2 as [[]|e'| |]; try discriminate. now injection He as <-.
Qed.
Print Assumptions C108_written_whole.

(** Every announced length is at most [lim]. *)
Definition announces_at_most (lim : N) (name : str) (bits : N) (fs : list field) : Prop :=
  forall f n, In f fs -> to_lower (f_name f) = name -> numeral bits (f_value f) n -> (n <= lim)%N.
Lemma announced {U} (ev : env U) fs name lim : env_ok ev -> to_lower name = name -> announces_at_most lim name (usize_bits ev) fs ->
  N.ltb lim (match parsed_length (usize_bits ev) (find_header name (iter_order ev (extend [] (map field_pair fs)))) with Some n => n | None => 0%N end) = false.
Proof.
  intros Hev Hname H. set (m := extend [] (map field_pair fs)). assert (hm_wf m) as W by apply extend_wf, hm_wf_nil. pose proof (Hev m W) as P.
  apply N.ltb_ge. destruct (find_header name (iter_order ev m)) as [v|] eqn:Ef; cbn [parsed_length]; [|lia].
  destruct (parse_uint _ _) as [n|] eqn:En; [|lia].
  apply find_header_some in Ef as (k & Hk & Hl). apply (Permutation_in _ (Permutation_sym P)) in Hk. apply in_extend, last_field_value in Hk as (f1 & f & f2 & -> & <- & <- & _).
  apply (H f); [apply in_or_app; right; now left|congruence|]. now apply numeral_iff.
Qed.
Lemma more_found {U} (ev : env U) fs rest name : env_ok ev -> to_lower name = name -> more_to_come name (usize_bits ev) fs rest ->
  wants_more (parsed_length (usize_bits ev) (find_header name (iter_order ev (extend [] (map field_pair fs))))) rest.
Proof.
  intros Hev Hname H. set (m := extend [] (map field_pair fs)). assert (hm_wf m) as W by apply extend_wf, hm_wf_nil. pose proof (Hev m W) as P.
  assert (forall k v, In (k, v) (iter_order ev m) <-> last_field k v fs) as Hin.
  { intros k v. rewrite last_field_value, <- in_extend. split; intros Hx; (eapply Permutation_in; [|exact Hx]); [now symmetry|exact P]. }
  destruct (find_header name (iter_order ev m)) as [v|] eqn:Ef; cbn [parsed_length]; [|exact I].
  apply find_header_some in Ef as (k & Hk & Hl). apply Hin in Hk as (f1 & f & f2 & -> & <- & <- & _).
  destruct (parse_uint _ _) as [n|] eqn:En; [|exact I]. cbn. apply (H f); [apply in_or_app; right; now left|congruence|]. now apply numeral_iff.
Qed.
(** A request whose connection fails before the body is complete: reading the body, reading it as a string and
    forwarding the request all report the error (and everything that came is passed on). *)
Theorem C108_request_broken_off : forall U (ev : env U) s meth target fs rest tail r sz,
  sent ev s meth target fs rest (Fail EOther :: tail) -> all_utf8 fs -> more_to_come (bs "content-length") (usize_bits ev) fs rest ->
  request_parse ev s = Ok (Some r) -> positive sz ->
  into_bytes sz (rq_body r) = Err EOther /\
  (forall lim, announces_at_most lim (bs "content-length") (usize_bits ev) fs -> into_string lim sz (rq_body r) = Err EOther) /\
  request_write ev sz r None = (request_lines ev r ++ rest, Err EOther).
Proof.
  intros U ev s meth target fs rest tail r sz Hs Hu Hm E Hsz.
  destruct (sent_headers ev s meth target fs rest _ Hs Hu) as (rd & Hrep & Hcap & E'). rewrite E in E'. cbn zeta in E'.
  destruct (find_header (bs "host") _); [|discriminate E']. destruct (request_url _ _ _ _); [|discriminate E']. injection E' as ->.
  destruct (reader_fails sz rd _ rest tail Hsz Hrep Hcap (more_found ev fs rest (bs "content-length") (proj1 Hs) eq_refl Hm)) as (ds & b' & Ed & Ec).
  assert (into_bytes sz (body_from_reader rd (parsed_length (usize_bits ev) (find_header (bs "content-length") (iter_order ev (extend [] (map field_pair fs)))))) = Err EOther) as Eb.
  { unfold into_bytes. now rewrite Ed. }
  cbn [rq_body]. split; [exact Eb|]. split; [intros lim Hl; unfold into_string; rewrite Eb; cbn [b_length body_from_reader]; now rewrite (announced ev fs _ lim (proj1 Hs) eq_refl Hl)|].
  rewrite <- Ec. eapply write_shape. exact Ed.
Qed.
Print Assumptions C108_request_broken_off.
(** The same for responses (whose length is taken from Content-Type, C36). *)
Theorem C108_response_broken_off : forall U (ev : env U) s code reason fs rest tail r sz,
  env_ok ev -> reads_responses (parse_head_resp ev) -> response_head_ok code reason fs -> all_utf8 fs ->
  delivers true s (response_head code reason fs ++ rest) (Fail EOther :: tail) -> more_to_come (bs "content-type") (usize_bits ev) fs rest ->
  response_parse ev s = Ok (Some r) -> positive sz ->
  into_bytes sz (rs_body r) = Err EOther /\
  (forall lim, announces_at_most lim (bs "content-type") (usize_bits ev) fs -> into_string lim sz (rs_body r) = Err EOther) /\
  exists hs, Permutation hs (rs_headers r) /\ encode sz r None = (response_lines r hs ++ rest, Err EOther).
Proof.
  intros U ev s code reason fs rest tail r sz Hev Hp Hok Hu Hd Hm E Hsz.
  destruct (response_sent ev s code reason fs rest _ Hev Hp Hok Hu Hd) as (rd & Hrep & Hcap & E'). rewrite E in E'. injection E' as ->.
  destruct (reader_fails sz rd _ rest tail Hsz Hrep Hcap (more_found ev fs rest (bs "content-type") Hev eq_refl Hm)) as (ds & b' & Ed & Ec).
  assert (into_bytes sz (body_from_reader rd (parsed_length (usize_bits ev) (find_header (bs "content-type") (iter_order ev (extend [] (map field_pair fs)))))) = Err EOther) as Eb.
  { unfold into_bytes. now rewrite Ed. }
  cbn [rs_body]. split; [exact Eb|]. split; [intros lim Hl; unfold into_string; rewrite Eb; cbn [b_length body_from_reader]; now rewrite (announced ev fs _ lim Hev eq_refl Hl)|].
  eexists. split; [symmetry; apply sort_headers_perm|]. rewrite <- Ec. eapply encode_shape. exact Ed.
Qed.
Print Assumptions C108_response_broken_off.
(** A connection closed by the client before the announced length: nothing is reported. The short body is taken for
    the whole one, and the forwarded request announces more than it has. *)
Theorem C108_closed_early_refuted : forall U (ev : env U) s meth target fs rest r sz k v n,
  sent ev s meth target fs rest [] -> request_parse ev s = Ok (Some r) -> last_field k v fs -> to_lower k = bs "content-length" ->
  spelled_once (bs "content-length") fs -> numeral (usize_bits ev) v n -> (N.of_nat (length rest) < n)%N -> positive sz ->
  into_bytes sz (rq_body r) = Ok rest /\ request_write ev sz r None = (request_lines ev r ++ rest, Ok tt).
Proof.
  intros U ev s meth target fs rest r sz k v n Hs E Hl Hk Ho Hn Hlt Hsz.
  assert (into_bytes sz (rq_body r) = Ok rest) as Eb.
  { rewrite (proj1 (C29_content_length U ev s meth target fs rest [] k v n r Hs E Hl Hk Ho Hn) (or_introl eq_refl) sz Hsz). f_equal. apply firstn_all2. lia. }
  split; [exact Eb|]. destruct (drain_of_into sz _ _ Eb) as (ds & b' & Ed & Ec). rewrite <- Ec. eapply write_shape. exact Ed.
Qed.
Print Assumptions C108_closed_early_refuted.
Definition ten_fields : list field := map plain_field [(bs "Host", bs "h"); (bs "Content-Length", bs "10")].
Example C108_example : exists r q,
  sent (demo_env (@rev _)) [Data (request_head (bs "POST") (bs "/") ten_fields ++ bs "hel"); Fail EInterrupted; Data (bs "lo"); Fail EOther] (bs "POST") (bs "/") ten_fields (bs "hello") [Fail EOther] /\
  all_utf8 ten_fields /\ more_to_come (bs "content-length") 32 ten_fields (bs "hello") /\
  request_parse (demo_env (@rev _)) [Data (request_head (bs "POST") (bs "/") ten_fields ++ bs "hel"); Fail EInterrupted; Data (bs "lo"); Fail EOther] = Ok (Some r) /\
  into_bytes sz1 (rq_body r) = Err EOther /\
  request_parse (demo_env (@rev _)) [Data (request_head (bs "POST") (bs "/") ten_fields ++ bs "hello")] = Ok (Some q) /\
  into_bytes sz1 (rq_body q) = Ok (bs "hello") /\ last_field (bs "Content-Length") (bs "10") ten_fields /\ numeral 32 (bs "10") 10.
Proof.
  pose proof (fields_lit [(bs "Host", bs "h"); (bs "Content-Length", bs "10")] eq_refl) as F.
  eexists _, _. split; [|split; [|split; [|split; [vm_compute; reflexivity|split; [vm_compute; reflexivity|split; [vm_compute; reflexivity|split; [vm_compute; reflexivity|split]]]]]]].
  - split; [apply demo_ok|]. split; [exact httparse_reads_requests|]. split.
    + split; [discriminate|]. split; [apply tchars_lit; vm_compute; reflexivity|]. split; [discriminate|].
      split; [apply targets_lit; vm_compute; reflexivity|]. split; [|cbn; lia]. apply Forall_map. eapply Forall_impl; [|exact F]. now intros kv [H _].
    + change (bs "hello") with (bs "hel" ++ bs "lo"). rewrite app_assoc. apply dv_data; [discriminate|]. apply dv_intr; [reflexivity|].
      rewrite <- (app_nil_r (bs "lo")). apply dv_data; [discriminate|]. constructor.
  - apply Forall_map. eapply Forall_impl; [|exact F]. now intros kv [_ H].
  - intros f n [<-|[<-|[]]] Hk Hn; [discriminate Hk|]. apply numeral_iff in Hn. vm_compute in Hn. injection Hn as <-. reflexivity.
  - apply last_field_value. vm_compute. reflexivity.
  - apply numeral_iff. vm_compute. reflexivity.
Qed.
