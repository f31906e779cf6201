(** C109: blank lines before a request. *)
From Coq Require Import Sorting.Sorted.
From Verif Require Import Base HMap Num Utf8 Io IoProofs HttpModel HttpSpec Httparse HttpProofs HttpProofs2 HttpProofs3 HttpProofs4 HttpLemmas HttpLemmas2 RouterModel RouterProofs.
From Coq Require Import Lia.

(** What httparse documents of empty lines: those before a request line are skipped, and where only empty lines are
    given nothing has been read yet. *)
Definition skips_blank_lines (hp : str -> hp_request) : Prop :=
  (forall meth target fs, request_head_ok meth target fs -> hp (CRLF ++ request_head meth target fs) = hp (request_head meth target fs)) /\
  hq_status (hp (CRLF ++ CRLF)) = HpPartial /\ hq_method (hp (CRLF ++ CRLF)) = None.
Lemma httparse_skips : skips_blank_lines httparse_request.
Proof.
  split; [|split; vm_compute; reflexivity]. intros m t fs (Hm & Hm' & _). unfold httparse_request.
  assert (forall f, skip_empty f (request_head m t fs) = request_head m t fs) as H.
  { intros f. unfold request_head. destruct m as [|c m]; [congruence|]. inversion_clear Hm'. destruct (tchar_not_nl c); auto.
    destruct f; cbn [app skip_empty]; [reflexivity|]. now rewrite newline_none. }
  change (skip_empty (length (CRLF ++ request_head m t fs)) (CRLF ++ request_head m t fs)) with (skip_empty (S (length (request_head m t fs))) (request_head m t fs)).
  now rewrite !H.
Qed.

Lemma blank_complete meth target fs : request_head_ok meth target fs -> complete_head (CRLF ++ request_head meth target fs).
Proof.
  intros Hok. destruct (request_head_complete _ _ _ Hok) as [(p & E) Hlast]. destruct Hok as (Hm & Hm' & _). split; [exists (CRLF ++ p); now rewrite E, app_assoc|].
  intros p' q E'. unfold request_head in E'. destruct meth as [|c m]; [congruence|]. inversion_clear Hm'. destruct (tchar_not_nl c) as [N1 N2]; auto.
  unfold CRLF in E'. destruct p' as [|a [|b p']]; cbn [app] in E'.
  - assert (c = x0d) as -> by congruence. discriminate N1.
  - discriminate E'.
  - apply (Hlast p' q). injection E'. intros E2 _ _. exact E2.
Qed.

(** ** C109 *)
(** RFC 7230, 3.5: "a server [...] SHOULD ignore at least one empty line (CRLF) received prior to the request-line." One is ignored. *)
Theorem C109_one_blank_line : forall U (ev : env U) s1 s2 meth target fs rest,
  skips_blank_lines (parse_head_req ev) -> request_head_ok meth target fs ->
  delivers true s1 (CRLF ++ request_head meth target fs ++ rest) [] -> delivers true s2 (request_head meth target fs ++ rest) [] ->
  same_outcome (request_parse ev s1) (request_parse ev s2).
Proof.
  intros U ev s1 s2 meth target fs rest [Hp _] Hok H1 H2. rewrite app_assoc in H1.
  destruct (request_parse_head ev s1 _ rest [] H1 (blank_complete _ _ _ Hok)) as (rd1 & E1 & R1 & C1).
  destruct (request_parse_head ev s2 _ rest [] H2 (request_head_complete _ _ _ Hok)) as (rd2 & E2 & R2 & C2).
  rewrite E1, E2. unfold request_of_head. rewrite (Hp _ _ _ Hok). set (h := parse_head_req ev (request_head meth target fs)).
  unfold same_outcome. destruct (hq_status h); try reflexivity;
  (destruct (hq_method h); [|reflexivity]; destruct (insert_headers _ _); [|reflexivity]; destruct (find_header (bs "host") _); [|reflexivity];
   destruct (hq_path h); [|reflexivity]; destruct (request_url _ _ _ _); [|reflexivity]; cbn [rq_method rq_url rq_headers rq_body b_length body_from_reader];
   split; [reflexivity|]; split; [reflexivity|]; split; [reflexivity|]; split; [reflexivity|]; intros sz sz' Hs Hs';
   rewrite (body_content rd1 _ rest [] sz), (body_content rd2 _ rest [] sz'); auto).
Qed.
Print Assumptions C109_one_blank_line.
(** Two are not: whatever follows them is lost, and serving the connection panics. *)
Theorem C109_two_blank_lines_refuted : forall U (ev : env U) s rest tail,
  skips_blank_lines (parse_head_req ev) -> delivers true s (CRLF ++ CRLF ++ rest) tail ->
  request_parse ev s = Err RqMissingMethod /\
  forall M H S (im : image M H) run_m sz (r : router M H) (st : S) budget, image_ok im eq eq -> serve_conn ev im run_m sz (as_ints im r) s st budget = Crashed.
Proof.
  intros U ev s rest tail (_ & Hs & Hm) Hd. rewrite app_assoc in Hd.
  assert (complete_head (CRLF ++ CRLF)) as Hc.
  { split; [now exists []|]. intros p q E. apply (f_equal (@length _)) in E. rewrite !app_length in E. destruct q; [reflexivity|]. cbn in E. lia. }
  destruct (request_parse_head ev s _ rest tail Hd Hc) as (rd & E & _). unfold request_of_head in E. rewrite Hs, Hm in E.
  split; [exact E|]. intros M H S im run_m sz r st budget Him. unfold serve_conn. now rewrite E, ints_exact.
Qed.
Print Assumptions C109_two_blank_lines_refuted.
Example C109_example : skips_blank_lines (parse_head_req (demo_env (@rev _))) /\
  request_head_ok (bs "POST") (bs "/a/b") demo_fields /\
  (exists r, request_parse (demo_env (@rev _)) [Data (CRLF ++ request_head (bs "POST") (bs "/a/b") demo_fields ++ bs "hello")] = Ok (Some r)) /\
  request_parse (demo_env (@rev _)) [Data (CRLF ++ CRLF ++ request_head (bs "POST") (bs "/a/b") demo_fields ++ bs "hello")] = Err RqMissingMethod.
Proof. split; [exact httparse_skips|]. split; [apply demo_head_ok|]. split; [eexists; vm_compute; reflexivity|vm_compute; reflexivity]. Qed.
