(** The exact statements used in PropHttp.v, and the concrete witnesses. *)
From Coq Require Import Sorting.Sorted.
From Verif Require Import Base HMap Num Utf8 Io IoProofs HttpModel HttpSpec Httparse HttpProofs HttpProofs2 HttpProofs3 HttpProofs4.
Ltac Zify.zify_post_hook ::= Z.div_mod_to_equations.

Definition positive (sz : nat -> nat) : Prop := forall i, 0 < sz i.

(* ------------------------------------------------------------------ *)
(** ** A concrete environment (for witnesses): httparse as in Httparse.v, a minimal http URL parser *)
Definition demo_path (u : str) : str :=
  let r := if starts_with (bs "https://") u then skipn 8 u else skipn 7 u in
  let p := snd (until_byte x2f r) in
  match fst (until_byte x3f p) with [] => bs "/" | q => q end.
Definition demo_env (order : hmap str -> hmap str) : env str :=
  Env httparse_request httparse_response
      (fun s => if starts_with (bs "http://") s || starts_with (bs "https://") s then Some s else None)
      demo_path (fun u => Some (split_on x2f (skipn 1 (demo_path u)))) order 32 (2 ^ 31 - 1).
Lemma demo_ok : env_ok (demo_env (fun m => m)) /\ env_ok (demo_env (@rev _)).
Proof. split; intros m _; cbn; [reflexivity|apply Permutation_rev]. Qed.

(* ------------------------------------------------------------------ *)
(** ** Heads *)
Lemma body_content (rd : bufreader) (len : option N) rest tail sz :
  rep true rd rest tail -> 0 < br_cap rd -> positive sz ->
  (tail = [] \/ exists n, len = Some n /\ (n <= N.of_nat (length rest))%N) ->
  into_bytes sz (body_from_reader rd len) = Ok (match len with None => rest | Some n => firstn (N.to_nat n) rest end).
Proof.
  intros Hrep Hcap Hsz Hlim. unfold into_bytes.
  assert (body_left (body_from_reader rd len) = len) as Hleft.
  { unfold body_left, body_from_reader. cbn. destruct len; [now rewrite N.sub_0_r|reflexivity]. }
  destruct (drain_ok sz (body_from_reader rd len) rest tail) as (ds & b' & E & Hc & _); auto.
  - unfold body_sound, body_from_reader. cbn. destruct len; [lia|exact I].
  - rewrite Hleft. exact Hlim.
  - rewrite E, Hc, Hleft. destruct len; reflexivity.
Qed.

Lemma head_exact {U} (ev : env U) s head rest tail :
  delivers true s (head ++ rest) tail -> complete_head head ->
  exists rd, request_parse ev s = request_of_head ev head rd /\
    (forall sz, positive sz -> tail = [] -> into_bytes sz (body_from_reader rd None) = Ok rest).
Proof.
  intros Hd Hc. destruct (request_parse_head ev s head rest tail Hd Hc) as (rd & E & Hrep & Hcap).
  exists rd. split; [exact E|]. intros sz Hsz Ht. rewrite (body_content rd None rest tail sz); auto.
Qed.

(** What a program can observe of a parse result. *)
Definition same_outcome {U} (a b : res request_error (option (request U))) : Prop :=
  match a, b with
  | Ok None, Ok None => True
  | Err e, Err e' => e = e'
  | Ok (Some r), Ok (Some r') =>
      rq_method r = rq_method r' /\ rq_url r = rq_url r' /\ rq_headers r = rq_headers r' /\
      b_length (rq_body r) = b_length (rq_body r') /\
      forall sz sz', positive sz -> positive sz' -> into_bytes sz (rq_body r) = into_bytes sz' (rq_body r')
  | _, _ => False
  end.

Lemma segmentation_independent {U} (ev : env U) s1 s2 bytes :
  delivers true s1 bytes [] -> delivers true s2 bytes [] ->
  ((exists head rest, bytes = head ++ rest /\ complete_head head) \/ no_head bytes) ->
  same_outcome (request_parse ev s1) (request_parse ev s2).
Proof.
  intros H1 H2 [(head & rest & -> & Hc)|Hn].
  - destruct (request_parse_head ev s1 head rest [] H1 Hc) as (rd1 & -> & R1 & C1).
    destruct (request_parse_head ev s2 head rest [] H2 Hc) as (rd2 & -> & R2 & C2).
    unfold request_of_head. destruct (hq_status _); try reflexivity;
    (destruct (hq_method _); [|reflexivity]; destruct (insert_headers _ _); [|reflexivity];
     destruct (find_header _ _); [|reflexivity]; destruct (hq_path _); [|reflexivity];
     destruct (request_url _ _ _ _); [|reflexivity]; cbn [same_outcome rq_method rq_url rq_headers rq_body b_length body_from_reader];
     do 4 (split; [reflexivity|]); intros sz sz' Hsz Hsz';
     rewrite (body_content rd1 _ rest [] sz), (body_content rd2 _ rest [] sz'); auto).
  - rewrite (request_parse_eof ev s1 bytes), (request_parse_eof ev s2 bytes); auto. exact I.
Qed.

(** Every byte string either has a unique complete head or none. *)
Lemma head_or_none (s : str) : (exists head rest, s = head ++ rest /\ complete_head head) \/ no_head s.
Proof.
  assert (forall n (q : str), n <= length s ->
    (exists head rest, s = head ++ rest /\ complete_head head /\ length head <= n) \/
    (forall p r, firstn n s <> p ++ CRLF ++ CRLF ++ r)) as H.
  { intros n _. induction n as [|n IH]; intros Hn.
    - right. intros p r E. cbn in E. destruct p; discriminate.
    - destruct IH as [(h & r & E & Hc & Hl)|IH]; [lia|left; exists h, r; auto|].
      destruct (ends_head (firstn (S n) s)) eqn:Eh.
      + left. exists (firstn (S n) s), (skipn (S n) s). rewrite firstn_skipn. split; [reflexivity|].
        split; [|rewrite firstn_length; lia]. apply ends_head_spec in Eh as (p & Ep). split; [eauto|].
        intros p' q' E'. destruct q' as [|c q' _] using rev_ind; [reflexivity|exfalso].
        apply (IH p' q'). rewrite <- (firstn_firstn s n (S n)) || idtac.
        assert (firstn n s = firstn n (firstn (S n) s)) as -> by (rewrite firstn_firstn; f_equal; lia).
        rewrite E'. rewrite !app_assoc. rewrite firstn_app.
        assert (length (((p' ++ CRLF) ++ CRLF) ++ q') = n) as Hlen.
        { apply (f_equal (@length _)) in E'. rewrite firstn_length, !app_length in E'. rewrite !app_length. cbn [length] in *. lia. }
        rewrite Hlen, Nat.sub_diag. cbn [firstn]. rewrite app_nil_r, <- Hlen, firstn_all. reflexivity.
      + right. intros p r E. destruct r as [|c r _] using rev_ind.
        * apply Bool.not_true_iff_false in Eh. apply Eh. apply ends_head_spec. exists p. now rewrite app_nil_r in E.
        * apply (IH p r).
          assert (firstn n s = firstn n (firstn (S n) s)) as -> by (rewrite firstn_firstn; f_equal; lia).
          rewrite E. rewrite !app_assoc. rewrite firstn_app.
          assert (length (((p ++ CRLF) ++ CRLF) ++ r) = n) as Hlen.
          { apply (f_equal (@length _)) in E. rewrite firstn_length, !app_length in E. rewrite !app_length. cbn [length] in *. lia. }
          rewrite Hlen, Nat.sub_diag. cbn [firstn]. rewrite app_nil_r, <- Hlen, firstn_all. reflexivity. }
  destruct (H (length s) [] (le_n _)) as [(h & r & E & Hc & _)|Hn]; [left; eauto|right].
  rewrite firstn_all in Hn. exact Hn.
Qed.
Lemma segmentation_free {U} (ev : env U) s1 s2 bytes :
  delivers true s1 bytes [] -> delivers true s2 bytes [] -> same_outcome (request_parse ev s1) (request_parse ev s2).
Proof. intros. eapply segmentation_independent; eauto. apply head_or_none. Qed.

(* ------------------------------------------------------------------ *)
(** ** Requests with well-formed heads *)
Definition sent {U} (ev : env U) (s : stream) (meth target : str) (fs : list field) (rest : str) (tail : stream) : Prop :=
  env_ok ev /\ reads_requests (parse_head_req ev) /\ request_head_ok meth target fs /\
  delivers true s (request_head meth target fs ++ rest) tail.
Definition all_utf8 (fs : list field) : Prop := Forall (fun f => is_utf8 (f_value f)) fs.
(** All fields with this (lower-case) name have the same spelling of the name. *)
Definition spelled_once (name : str) (fs : list field) : Prop :=
  forall f g, In f fs -> In g fs -> to_lower (f_name f) = name -> to_lower (f_name g) = name -> f_name f = f_name g.
(** [v] is the value of the last field called [k]. *)
Definition last_field (k v : str) (fs : list field) : Prop :=
  exists fs1 f fs2, fs = fs1 ++ f :: fs2 /\ f_name f = k /\ f_value f = v /\ Forall (fun g => f_name g <> k) fs2.

Lemma last_field_value k v fs : last_field k v fs <-> last_value k (map field_pair fs) = Some v.
Proof.
  rewrite last_value_spec. split.
  - intros (fs1 & f & fs2 & -> & <- & <- & H). exists (map field_pair fs1), (map field_pair fs2). rewrite map_app. split; [reflexivity|].
    rewrite map_map. intros Hin. apply in_map_iff in Hin as (g & E & Hg). rewrite Forall_forall in H. now apply H in Hg.
  - intros (l1 & l2 & E & H). apply map_eq_app in E as (fs1 & fs' & -> & <- & E). apply map_eq_cons in E as (f & fs2 & -> & Ef & <-).
    exists fs1, f, fs2. unfold field_pair in Ef. injection Ef as <- <-. repeat split. apply Forall_forall. intros g Hg E.
    apply H. rewrite map_map. apply in_map_iff. exists g. auto.
Qed.

Section Sent.
Context {U : Type} (ev : env U) (s : stream) (meth target : str) (fs : list field) (rest : str) (tail : stream).
Hypothesis Hsent : sent ev s meth target fs rest tail.

Lemma sent_headers : all_utf8 fs ->
  let m := iter_order ev (extend [] (map field_pair fs)) in
  exists rd, rep true rd rest tail /\ 0 < br_cap rd /\
    request_parse ev s =
    match find_header (bs "host") m with
    | None => Err (RqMissingHeader (bs "Host"))
    | Some host => match request_url ev host meth target with
        | None => Err RqInvalidUrl
        | Some url => Ok (Some (Request m (method_from_str meth)
                        (body_from_reader rd (parsed_length (usize_bits ev) (find_header (bs "content-length") m))) url))
        end
    end.
Proof.
  intros Hu m. destruct Hsent as (Hev & Hp & Hok & Hd).
  destruct (request_parse_head ev s _ rest tail Hd (request_head_complete _ _ _ Hok)) as (rd & E & Hrep & Hcap).
  exists rd. split; [exact Hrep|]. split; [exact Hcap|]. rewrite E. unfold request_of_head. rewrite (Hp _ _ _ Hok).
  cbn [hq_status hq_method hq_path hq_headers]. rewrite insert_headers_ok; [reflexivity|].
  apply Forall_map. eapply Forall_impl; [|exact Hu]. auto.
Qed.

Lemma sent_wf : let m := iter_order ev (extend [] (map field_pair fs)) in
  hm_wf m /\ forall k v, In (k, v) m <-> last_field k v fs.
Proof.
  destruct Hsent as (Hev & _). pose proof (extend_wf [] (map field_pair fs) hm_wf_nil) as W.
  pose proof (Hev _ W) as P. split; [eapply perm_wf; eauto|]. intros k v. rewrite last_field_value, <- in_extend.
  split; intros H; (eapply Permutation_in; [|exact H]); [now symmetry|exact P].
Qed.

Lemma sent_bad_utf8 f : In f fs -> ~ is_utf8 (f_value f) -> request_parse ev s = Err RqUtf8Error.
Proof.
  intros Hin Hbad. destruct Hsent as (Hev & Hp & Hok & Hd).
  destruct (request_parse_head ev s _ rest tail Hd (request_head_complete _ _ _ Hok)) as (rd & E & Hrep & Hcap).
  rewrite E. unfold request_of_head. rewrite (Hp _ _ _ Hok). cbn [hq_status hq_method hq_path hq_headers].
  rewrite (insert_headers_bad _ [] (field_pair f)); auto. now apply in_map.
Qed.

Lemma sent_find name k v : to_lower name = name -> last_field k v fs -> to_lower k = name -> spelled_once name fs ->
  find_header name (iter_order ev (extend [] (map field_pair fs))) = Some v.
Proof.
  intros Hname Hl Hk Hone. destruct sent_wf as [W Hin]. apply (find_header_unique _ _ k v).
  - now apply Hin.
  - congruence.
  - intros k' v' Hin' Hk'. apply Hin in Hin'. rewrite Hname in Hk'.
    assert (k' = k) as ->.
    { destruct Hin' as (a & f & b & -> & <- & <- & _), Hl as (a' & g & b' & E & <- & <- & _).
      apply Hone; auto; [apply in_or_app; right; now left|]. rewrite E. apply in_or_app. right. now left. }
    apply last_field_value in Hin', Hl. congruence.
Qed.
Lemma sent_find_none name : to_lower name = name -> Forall (fun f => to_lower (f_name f) <> name) fs ->
  find_header name (iter_order ev (extend [] (map field_pair fs))) = None.
Proof.
  intros Hname H. apply find_header_none. intros k v Hin. apply sent_wf in Hin as (a & f & b & -> & <- & _ & _).
  rewrite Forall_forall in H. rewrite Hname. apply H. apply in_or_app. right. now left.
Qed.
End Sent.

Lemma headers_faithful {U} (ev : env U) s meth target fs rest tail r :
  sent ev s meth target fs rest tail -> request_parse ev s = Ok (Some r) ->
  forall k v, get k (rq_headers r) = Some v <-> last_field k v fs.
Proof.
  intros Hs E k v.
  assert (all_utf8 fs) as Hu.
  { apply Forall_forall. intros f Hf. destruct (valid_utf8 (f_value f)) eqn:Ev; [now apply valid_utf8_iff|exfalso].
    rewrite (sent_bad_utf8 ev s meth target fs rest tail Hs f Hf) in E; [discriminate|].
    intros H. apply valid_utf8_iff in H. congruence. }
  destruct (sent_headers ev s meth target fs rest tail Hs Hu) as (rd & _ & _ & E').
  destruct (sent_wf ev s meth target fs rest tail Hs) as [W Hin]. rewrite E' in E.
  destruct (find_header (bs "host") _); [|discriminate]. destruct (request_url _ _ _ _); [|discriminate]. injection E as <-.
  cbn [rq_headers]. rewrite <- Hin. split; [apply get_some_in|now apply in_get].
Qed.

Lemma invalid_value {U} (ev : env U) s meth target fs rest tail f :
  sent ev s meth target fs rest tail -> In f fs -> ~ is_utf8 (f_value f) -> request_parse ev s = Err RqUtf8Error.
Proof. intros Hs. now apply (sent_bad_utf8 ev s meth target fs rest tail Hs). Qed.

(** ** URL *)
Lemma url_from_target {U} (ev : env U) s meth target fs rest tail k host :
  sent ev s meth target fs rest tail -> all_utf8 fs ->
  last_field k host fs -> to_lower k = bs "host" -> spelled_once (bs "host") fs ->
  (forall uri u, addressed host meth target uri -> url_parse ev uri = Some u ->
     exists r, request_parse ev s = Ok (Some r) /\ rq_url r = u /\ rq_method r = method_from_str meth) /\
  (forall uri, addressed host meth target uri -> url_parse ev uri = None -> request_parse ev s = Err RqInvalidUrl) /\
  ((forall uri, ~ addressed host meth target uri) -> request_parse ev s = Err RqInvalidUrl).
Proof.
  intros Hs Hu Hl Hk Hone. destruct (sent_headers ev s meth target fs rest tail Hs Hu) as (rd & _ & _ & ->).
  rewrite (sent_find ev s meth target fs rest tail Hs (bs "host") k host); auto.
  destruct (request_url_addressed ev host meth target) as [Ha Hna].
  split; [|split].
  - intros uri u Hadd Hp. rewrite (Ha uri Hadd), Hp. eexists. repeat split.
  - intros uri Hadd Hp. now rewrite (Ha uri Hadd), Hp.
  - intros Hno. now rewrite Hna.
Qed.
Lemma missing_host {U} (ev : env U) s meth target fs rest tail :
  sent ev s meth target fs rest tail -> all_utf8 fs ->
  Forall (fun f => to_lower (f_name f) <> bs "host") fs ->
  request_parse ev s = Err (RqMissingHeader (bs "Host")).
Proof.
  intros Hs Hu Hno. destruct (sent_headers ev s meth target fs rest tail Hs Hu) as (rd & _ & _ & ->).
  now rewrite (sent_find_none ev s meth target fs rest tail Hs (bs "host")).
Qed.
Lemma parsed_has_host {U} (ev : env U) s r : request_parse ev s = Ok (Some r) ->
  exists k host meth target uri, In (k, host) (rq_headers r) /\ to_lower k = bs "host" /\
    addressed host meth target uri /\ url_parse ev uri = Some (rq_url r).
Proof.
  unfold request_parse. destruct (read_head _) as [[[h|]|e| |] rd]; try discriminate.
  unfold request_of_head. destruct (hq_status _); try discriminate;
  (destruct (hq_method _) as [meth|]; [|discriminate]; destruct (insert_headers _ _) as [m|]; [|discriminate];
   destruct (find_header (bs "host") _) as [host|] eqn:Eh; [|discriminate]; destruct (hq_path _) as [target|]; [|discriminate];
   destruct (request_url _ _ _ _) as [u|] eqn:Eu; [|discriminate]; intros [= <-]; cbn [rq_headers rq_url];
   apply find_header_some in Eh as (k & Hin & Hk);
   destruct (request_url_addressed ev host meth target) as [Ha Hna];
   unfold request_url in Eu).
  all: destruct (starts_with (bs "http://") target || starts_with (bs "https://") target) eqn:E1;
    [apply orb_true_iff in E1; exists k, host, meth, target, target; repeat split; auto;
     destruct E1 as [E1|E1]; apply starts_with_spec in E1 as (t & E1); apply absolute_form with t; auto|].
  all: destruct (starts_with (bs "/") target) eqn:E2;
    [exists k, host, meth, target, (bs "http://" ++ host ++ target); repeat split; auto;
     apply starts_with_spec in E2 as (t & ->); eapply origin_form; reflexivity|].
  all: destruct (eq_ignore_case meth (bs "connect")) eqn:E3; [|discriminate];
    exists k, host, meth, target, (bs "http://" ++ host ++ bs "/"); repeat split; auto;
    apply eq_ignore_case_spec in E3; apply connect_form; [exact E3|];
    apply orb_false_iff in E1 as [Ea Eb]; intros t;
    (assert (forall p, starts_with p target = false -> target <> p ++ t) as Hp;
     [intros p Hp ->; apply Bool.not_true_iff_false in Hp; apply Hp; apply starts_with_spec; eauto|]); auto.
Qed.

(** ** Content-Length *)
Lemma body_limited {U} (ev : env U) s meth target fs rest tail k v n r :
  sent ev s meth target fs rest tail -> request_parse ev s = Ok (Some r) ->
  last_field k v fs -> to_lower k = bs "content-length" -> spelled_once (bs "content-length") fs ->
  parse_uint (usize_max (usize_bits ev)) v = Some n ->
  (tail = [] \/ (n <= N.of_nat (length rest))%N ->
     forall sz, positive sz -> into_bytes sz (rq_body r) = Ok (firstn (N.to_nat n) rest)) /\
  (forall ns rs b', body_reads br_read ns (rq_body r) = (rs, b') ->
     (N.of_nat (length (concat (map got rs))) <= n)%N).
Proof.
  intros Hs E Hl Hk Hone Hv.
  assert (all_utf8 fs) as Hu.
  { apply Forall_forall. intros f Hf. destruct (valid_utf8 (f_value f)) eqn:Ev; [now apply valid_utf8_iff|exfalso].
    rewrite (sent_bad_utf8 ev s meth target fs rest tail Hs f Hf) in E; [discriminate|].
    intros H. apply valid_utf8_iff in H. congruence. }
  destruct (sent_headers ev s meth target fs rest tail Hs Hu) as (rd & Hrep & Hcap & E'). rewrite E' in E.
  rewrite (sent_find ev s meth target fs rest tail Hs (bs "content-length") k v) in E; auto.
  destruct (find_header (bs "host") _); [|discriminate]. destruct (request_url _ _ _ _); [|discriminate]. injection E as <-.
  cbn [rq_body parsed_length]. rewrite Hv. split.
  - intros Hlim sz Hsz. apply (body_content rd (Some n) rest tail sz Hrep Hcap Hsz). destruct Hlim; [now left|right; eauto].
  - intros ns rs b' Hr. apply body_reads_bound in Hr; [|apply br_reader_ok|unfold body_sound, body_from_reader; cbn; lia].
    destruct Hr as (Hs' & Hlen & Hread & _). unfold body_sound in Hs'. rewrite Hlen in Hs'. cbn [b_length body_from_reader b_read] in *. lia.
Qed.
Lemma body_unlimited {U} (ev : env U) s meth target fs rest tail r :
  sent ev s meth target fs rest tail -> request_parse ev s = Ok (Some r) ->
  Forall (fun f => to_lower (f_name f) <> bs "content-length") fs -> tail = [] ->
  forall sz, positive sz -> into_bytes sz (rq_body r) = Ok rest.
Proof.
  intros Hs E Hno Ht sz Hsz.
  assert (all_utf8 fs) as Hu.
  { apply Forall_forall. intros f Hf. destruct (valid_utf8 (f_value f)) eqn:Ev; [now apply valid_utf8_iff|exfalso].
    rewrite (sent_bad_utf8 ev s meth target fs rest tail Hs f Hf) in E; [discriminate|].
    intros H. apply valid_utf8_iff in H. congruence. }
  destruct (sent_headers ev s meth target fs rest tail Hs Hu) as (rd & Hrep & Hcap & E'). rewrite E' in E.
  rewrite (sent_find_none ev s meth target fs rest tail Hs (bs "content-length")) in E; auto.
  destruct (find_header (bs "host") _); [|discriminate]. destruct (request_url _ _ _ _); [|discriminate]. injection E as <-.
  cbn [rq_body parsed_length]. now rewrite (body_content rd None rest tail sz); auto.
Qed.
(** The length a request's body declares. *)
Lemma body_declared {U} (ev : env U) s meth target fs rest tail k v r :
  sent ev s meth target fs rest tail -> request_parse ev s = Ok (Some r) ->
  last_field k v fs -> to_lower k = bs "content-length" -> spelled_once (bs "content-length") fs ->
  b_length (rq_body r) = parse_uint (usize_max (usize_bits ev)) v.
Proof.
  intros Hs E Hl Hk Hone.
  assert (all_utf8 fs) as Hu.
  { apply Forall_forall. intros f Hf. destruct (valid_utf8 (f_value f)) eqn:Ev; [now apply valid_utf8_iff|exfalso].
    rewrite (sent_bad_utf8 ev s meth target fs rest tail Hs f Hf) in E; [discriminate|].
    intros H. apply valid_utf8_iff in H. congruence. }
  destruct (sent_headers ev s meth target fs rest tail Hs Hu) as (rd & Hrep & Hcap & E'). rewrite E' in E.
  rewrite (sent_find ev s meth target fs rest tail Hs (bs "content-length") k v) in E; auto.
  destruct (find_header (bs "host") _); [|discriminate]. destruct (request_url _ _ _ _); [|discriminate]. injection E as <-. reflexivity.
Qed.
Lemma body_undeclared {U} (ev : env U) s meth target fs rest tail r :
  sent ev s meth target fs rest tail -> request_parse ev s = Ok (Some r) ->
  Forall (fun f => to_lower (f_name f) <> bs "content-length") fs -> b_length (rq_body r) = None.
Proof.
  intros Hs E Hno.
  assert (all_utf8 fs) as Hu.
  { apply Forall_forall. intros f Hf. destruct (valid_utf8 (f_value f)) eqn:Ev; [now apply valid_utf8_iff|exfalso].
    rewrite (sent_bad_utf8 ev s meth target fs rest tail Hs f Hf) in E; [discriminate|].
    intros H. apply valid_utf8_iff in H. congruence. }
  destruct (sent_headers ev s meth target fs rest tail Hs Hu) as (rd & Hrep & Hcap & E'). rewrite E' in E.
  rewrite (sent_find_none ev s meth target fs rest tail Hs (bs "content-length")) in E; auto.
  destruct (find_header (bs "host") _); [|discriminate]. destruct (request_url _ _ _ _); [|discriminate]. injection E as <-. reflexivity.
Qed.
