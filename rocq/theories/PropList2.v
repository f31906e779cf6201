(** The list example as a server, from the bytes of a request to the bytes of the answer: C95, C96. *)
From Verif Require Import Base HMap Num Utf8 Io IoProofs HttpModel HttpSpec Httparse HttpProofs2 HttpProofs3 HttpProofs4 HttpLemmas HttpLemmas2 FramingSpec
  RouterModel RouterProofs UpgradeModel UpgradeProofs ListModel FormSpec PropHttp PropHttp2 PropUpgrade PropRouter PropServe PropList.
From Coq Require Import Lia.

(* ------------------------------------------------------------------ *)
(** ** C95. *)
Definition text_404 : str :=
  bs "HTTP/1.1 404 not found" ++ CRLF ++ bs "Content-Type: text/html;charset=utf-8" ++ CRLF ++ CRLF ++ bs "<h1>404: Not found</h1>".
(** [answered conn items wire budget]: the list is [items] afterwards and the connection got [wire], or as much of it
    as the transport takes (then the process of the connection panics). *)
Definition answered (conn : list str * str * list_end) (items : list str) (wire : str) (budget : option nat) : Prop :=
  fst conn = (items, written wire budget) /\ (all_written wire budget -> snd conn = LDone) /\ (~ all_written wire budget -> snd conn = LPanicked).

Lemma encode_404 sz : positive sz -> encode sz err_404 None = (text_404, Ok tt).
Proof.
  intros Hsz. destruct (from_string_drain sz (bs "<h1>404: Not found</h1>") Hsz) as (ds & b' & E & Ec).
  rewrite (encode_exact sz err_404 ds b' E), Ec. reflexivity.
Qed.
Lemma encode_html sz html : positive sz -> encode sz (html_page html) None = (text_page (bs "text/html") html, Ok tt).
Proof.
  intros Hsz. destruct (from_string_drain sz html Hsz) as (ds & b' & E & Ec). rewrite (encode_exact sz (html_page html) ds b' E), Ec. reflexivity.
Qed.
Lemma page_answered sz r wire items budget : encode sz r None = (wire, Ok tt) ->
  answered (match encode sz r budget with (out, Ok _) => (items, out, LDone) | (out, _) => (items, out, LPanicked) end) items wire budget.
Proof.
  intros E. destruct (page_budget sz r wire E budget) as (A & B & C). unfold answered. destruct (encode sz r budget) as [out res]. cbn [fst snd] in *. subst out.
  split; [now destruct res|]. split; intros H; [now rewrite (B H)|now rewrite (C H)].
Qed.
Lemma list_conn_routes {U} (ev : env U) im sz pg items s budget req : image_ok im eq eq -> request_parse ev s = Ok (Some req) ->
  list_conn ev im sz pg items s budget =
  list_serve ev sz pg items
    (if list_matches ev GetSubmit req then ServeForm else if list_matches ev PostSubmit req then ServePost
     else if list_matches ev ReadInt req then ServeRead else Serve404) req budget.
Proof.
  intros Him Hp. unfold list_conn. destruct (serve_conn_spec ev im (list_matches ev) sz list_router s tt budget Him) as (H & _). rewrite (H req Hp).
  unfold list_router, router_route, router_new. cbn [app respond rt_matcher rt_handler].
  destruct (list_matches ev GetSubmit req); [reflexivity|]. destruct (list_matches ev PostSubmit req); [reflexivity|]. now destruct (list_matches ev ReadInt req).
Qed.
Lemma does_match_path {U} (ev : env U) m u : url_segments ev u = path_segments (url_path ev u) -> does_match ev m u = path_matches m (url_path ev u).
Proof. intros E. unfold does_match, path_matches. now rewrite E. Qed.
Lemma method_get meth : is_get (method_from_str meth) = true <-> to_lower meth = bs "get".
Proof.
  unfold method_from_str. destruct (str_eqb (to_lower meth) (bs "get")) eqn:E; [apply str_eqb_eq in E; now cbn|].
  split; [destruct (str_eqb _ (bs "post")); discriminate|]. intros H. apply str_eqb_eq in H. congruence.
Qed.
Lemma method_post meth : is_post (method_from_str meth) = true <-> to_lower meth = bs "post".
Proof.
  unfold method_from_str. destruct (str_eqb (to_lower meth) (bs "get")) eqn:E; [apply str_eqb_eq in E; rewrite E; now cbn|].
  destruct (str_eqb (to_lower meth) (bs "post")) eqn:E2; [apply str_eqb_eq in E2; now cbn|].
  split; [discriminate|]. intros H. apply str_eqb_eq in H. congruence.
Qed.

Lemma utf8_app a b : is_utf8 a -> is_utf8 b -> is_utf8 (a ++ b).
Proof.
  intros (cs & H1 & ->) (ds & H2 & ->). exists (cs ++ ds). split; [apply Forall_app; auto|]. now rewrite map_app, concat_app.
Qed.

(** What a request to the list server gets and does to the list, by its method, the path of the URL it addresses
    and its body (in the sense of RFC 7230, where puck supports it: C92). *)
Theorem C95_list_routes : forall U (ev : env U) im sz pg items s meth target fs bytes tail k host uri u budget,
  image_ok im eq eq -> positive sz -> sent ev s meth target fs bytes tail -> all_utf8 fs ->
  last_field k host fs -> to_lower k = bs "host" -> spelled_once (bs "host") fs ->
  addressed host meth target uri -> url_parse ev uri = Some u -> url_segments ev u = path_segments (url_path ev u) -> (31 <= usize_bits ev)%N ->
  let conn := list_conn ev im sz pg items s budget in
  let path := url_path ev u in
  (to_lower meth = bs "get" -> path = bs "/submit" -> answered conn items (text_page (bs "text/html") (form_html pg)) budget) /\
  (to_lower meth = bs "post" -> path = bs "/submit" -> forall content rest, framed fs bytes content rest ->
     ~ has_field (bs "transfer-encoding") fs -> (has_field (bs "content-length") fs \/ rest = [] /\ tail = []) ->
     (N.of_nat (length content) < 2 ^ usize_bits ev)%N -> spelled_once (bs "content-length") fs ->
     ((N.of_nat (length content) <= max_string ev)%N ->
        (forall t, content = bs "message=" ++ t -> is_utf8 t -> answered conn (items ++ [t]) (text_page (bs "text/html") (added_html pg)) budget) /\
        (is_utf8 content -> (forall t, content <> bs "message=" ++ t) -> answered conn items text_400 budget)) /\
     (~ is_utf8 content \/ (max_string ev < N.of_nat (length content))%N -> conn = (items, [], LPanicked))) /\
  (forall t, path = bs "/read/" ++ t -> i32_literal t ->
     ((forall t', t <> bs "-" ++ t') -> answered conn items (text_page (bs "text/html") (items_html pg items)) budget) /\
     (forall t', t = bs "-" ++ t' -> conn = (items, [], LPanicked))) /\
  (path <> bs "/submit" \/ to_lower meth <> bs "get" /\ to_lower meth <> bs "post" ->
   (forall t, path = bs "/read/" ++ t -> ~ i32_literal t) -> answered conn items text_404 budget).
Proof.
  intros U ev im sz pg items s meth target fs bytes tail k host uri u budget Him Hsz Hsent Hu Hk Hkn Ho Ha Hp Hseg Hbits.
  destruct (C28_url_from_target U ev s meth target fs bytes tail k host Hsent Hu Hk Hkn Ho) as (H & _).
  destruct (H uri u Ha Hp) as (req & Hreq & Hurl & Hmeth). clear H.
  cbv zeta. rewrite (list_conn_routes ev im sz pg items s budget req Him Hreq). cbn [list_matches]. rewrite Hurl, Hmeth, !does_match_path by exact Hseg.
  set (path := url_path ev u) in *.
  destruct (path_matches (match_at match_new (Static (bs "submit"))) path) eqn:Es.
  - apply submit_path in Es. rewrite !andb_true_r. split; [|split; [|split]].
    + intros Hg _. apply method_get in Hg. rewrite Hg. cbn [list_serve]. apply page_answered. now apply encode_html.
    + intros Hg _ content rest Hf Hte Hcl Hmax Hone. assert (is_get (method_from_str meth) = false) as ->.
      { destruct (is_get _) eqn:Eg; [|reflexivity]. apply method_get in Eg. rewrite Hg in Eg. discriminate. }
      apply method_post in Hg. rewrite Hg. cbn [list_serve]. unfold into_string.
      rewrite (framed_declared ev s meth target fs bytes tail content rest req Hsent Hf Hreq Hte Hmax Hone).
      rewrite (C92_framing_partial U ev s meth target fs bytes tail content rest req Hsent Hf Hreq Hte Hcl Hmax Hone sz Hsz).
      split; [intros Hlim; apply N.ltb_ge in Hlim; rewrite Hlim; split|].
      * intros t -> Ht. assert (valid_utf8 (bs "message=" ++ t) = true) as ->.
        { apply valid_utf8_iff. apply utf8_app; [|exact Ht]. apply valid_utf8_iff. vm_compute. reflexivity. }
        assert (starts_with (bs "message=") (bs "message=" ++ t) = true) as -> by (apply starts_with_spec; eauto).
        change (skipn 8 (bs "message=" ++ t)) with t. cbn [list_handle]. apply page_answered. now apply encode_html.
      * intros Hv Hn. apply valid_utf8_iff in Hv. rewrite Hv. destruct (starts_with (bs "message=") content) eqn:E.
        { apply starts_with_spec in E as (t & E). now apply Hn in E. }
        apply page_answered. now apply encode_400.
      * destruct (N.ltb_spec (max_string ev) (N.of_nat (length content))) as [L|L]; [reflexivity|].
        intros [Hn|Hn]; [|lia]. destruct (valid_utf8 content) eqn:E; [apply valid_utf8_iff in E; tauto|reflexivity].
    + intros t E. rewrite E in Es. discriminate.
    + intros [Hn|[H1 H2]] _; [tauto|]. destruct (is_get _) eqn:Eg; [apply method_get in Eg; tauto|]. destruct (is_post _) eqn:Ep; [apply method_post in Ep; tauto|].
      rewrite Es. replace (path_matches _ (bs "/submit")) with false by (vm_compute; reflexivity). cbn [list_serve]. apply page_answered. now apply encode_404.
  - rewrite !andb_false_r. assert (path <> bs "/submit") as Hne by (intros E; apply submit_path in E; congruence).
    split; [tauto|]. split; [tauto|].
    destruct (path_matches (match_at (match_at match_new (Static (bs "read"))) IntParam) path) eqn:Er.
    + apply read_path in Er as (r & Er & Hr). split.
      * intros t E Ht. assert (t = r) as -> by (rewrite Er in E; now apply app_inv_head in E). clear E Ht. cbn [list_serve]. rewrite Hurl. fold path. rewrite Er.
        assert ((length (bs "/read/" ++ r) <? 6)%nat = false) as ->.
        { apply Nat.ltb_ge. rewrite app_length. change (length (bs "/read/")) with 6. lia. }
        change (skipn 6 (bs "/read/" ++ r)) with r. assert (2 ^ 31 <= 2 ^ usize_bits ev)%N as Hpow by (apply N.pow_le_mono_r; lia).
        split.
        -- intros Hneg. assert (exists n, parse_uint (2 ^ usize_bits ev - 1) r = Some n) as (n & ->).
           { destruct Hr as (sign & ds & -> & Hsg & Hnn & Hd & Hv). cbv zeta in Hv. destruct Hsg as [->|[->| ->]].
             - change (str_eqb [] (bs "-")) with false in Hv. cbv iota in Hv. exists (digits_value ds). apply parse_uint_spec. exists ds. repeat split; auto; lia.
             - change (str_eqb (bs "+") (bs "-")) with false in Hv. cbv iota in Hv. exists (digits_value ds). apply parse_uint_spec. exists ds. repeat split; auto; lia.
             - now destruct (Hneg ds). }
           cbn [list_handle skipn]. destruct (_ <? _)%N; apply page_answered; now apply encode_html.
        -- intros t' ->. reflexivity.
      * intros _ Hn. now destruct (Hn r Er).
    + split.
      * intros t E Ht. exfalso. assert (exists s, path = bs "/read/" ++ s /\ i32_literal s) as X by eauto. apply read_path in X. congruence.
      * intros _ _. cbn [list_serve]. apply page_answered. now apply encode_404.
Qed.
Print Assumptions C95_list_routes.

(** The abstract answers of C68 and C78 are the ones this server gives. *)
Definition answer_text (pg : list_pages) (a : answer) : option str :=
  match a with
  | FormPage => Some (text_page (bs "text/html") (form_html pg)) | ItemsPage l => Some (text_page (bs "text/html") (items_html pg l))
  | AddedPage => Some (text_page (bs "text/html") (added_html pg)) | BadRequest => Some text_400 | NotFound => Some text_404 | HandlerPanic => None
  end.
Theorem C95_same_answers : forall U (ev : env U) im sz pg items s req body budget,
  image_ok im eq eq -> positive sz -> request_parse ev s = Ok (Some req) -> into_bytes sz (rq_body req) = Ok body ->
  url_segments ev (rq_url req) = path_segments (url_path ev (rq_url req)) ->
  let '(items', a) := list_request (usize_max (usize_bits ev)) (max_string ev) items (rq_method req) (url_path ev (rq_url req)) (b_length (rq_body req)) body in
  match answer_text pg a with
  | Some wire => answered (list_conn ev im sz pg items s budget) items' wire budget
  | None => list_conn ev im sz pg items s budget = (items', [], LPanicked)
  end.
Proof.
  intros U ev im sz pg items s req body budget Him Hsz Hp Hb Hseg. rewrite (list_conn_routes ev im sz pg items s budget req Him Hp). cbn [list_matches].
  rewrite !does_match_path by exact Hseg. set (path := url_path ev (rq_url req)) in *. unfold list_request.
  destruct (is_get (rq_method req) && _); [cbn [list_serve answer_text]; apply page_answered; now apply encode_html|].
  destruct (is_post (rq_method req) && _).
  - cbn [list_serve]. unfold into_string. rewrite Hb. destruct (N.ltb (max_string ev) _); [reflexivity|]. destruct (valid_utf8 body); cbn [negb]; [|reflexivity]. destruct (starts_with (bs "message=") body).
    + cbn [list_handle answer_text]. apply page_answered. now apply encode_html.
    + cbn [answer_text]. apply page_answered. now apply encode_400.
  - destruct (path_matches (match_at (match_at match_new (Static (bs "read"))) IntParam) path) eqn:Er.
    + cbn [list_serve]. fold path. apply read_path in Er as (r & -> & Hr).
      assert ((length (bs "/read/" ++ r) <? 6)%nat = false) as -> by (apply Nat.ltb_ge; rewrite app_length; change (length (bs "/read/")) with 6; lia).
      unfold usize_max. destruct (parse_uint _ (skipn 6 (bs "/read/" ++ r))); [|reflexivity]. cbn [list_handle]. destruct (_ <? _)%N; cbn [answer_text]; apply page_answered; now apply encode_html.
    + cbn [list_serve answer_text]. apply page_answered. now apply encode_404.
Qed.
Print Assumptions C95_same_answers.

(** A connection that ends before a complete head is answered with a 400; a head the server cannot read ends the process
    serving it without an answer. In both cases the list stays as it is. *)
Theorem C95_unread_requests : forall U (ev : env U) im sz pg items s budget, image_ok im eq eq -> positive sz ->
  (forall bytes, delivers true s bytes [] -> no_head bytes -> list_conn ev im sz pg items s budget = (items, written text_400 budget, LDone)) /\
  (forall e, request_parse ev s = Err e -> list_conn ev im sz pg items s budget = (items, [], LPanicked)).
Proof.
  intros U ev im sz pg items s budget Him Hsz. unfold list_conn.
  destruct (serve_conn_spec ev im (list_matches ev) sz list_router s tt budget Him) as (_ & H2 & H3). split.
  - intros bytes Hd Hn. now rewrite (H2 (request_parse_eof ev s bytes Hd Hn) Hsz).
  - intros e E. now rewrite (H3 e E).
Qed.
Print Assumptions C95_unread_requests.
(** Only a posted form changes the list, whatever else arrives, and then by one item at the end. *)
Theorem C95_only_posts_change : forall U (ev : env U) im sz pg items s budget, image_ok im eq eq ->
  fst (fst (list_conn ev im sz pg items s budget)) = items \/
  exists req t, request_parse ev s = Ok (Some req) /\ rq_method req = Post /\ url_segments ev (rq_url req) = Some [bs "submit"] /\
    into_bytes sz (rq_body req) = Ok (bs "message=" ++ t) /\ is_utf8 (bs "message=" ++ t) /\ ~ too_long (max_string ev) (b_length (rq_body req)) /\
    fst (fst (list_conn ev im sz pg items s budget)) = items ++ [t].
Proof.
  intros U ev im sz pg items s budget Him. unfold list_conn.
  destruct (serve_conn ev im (list_matches ev) sz (as_ints im list_router) s tt budget) as [calls|out| | |] eqn:E; try (now left).
  destruct calls as [|[[h req] []] calls]; [now left|].
  assert (request_parse ev s = Ok (Some req) /\ respond (list_matches ev) list_router req tt = (h, req, tt) :: calls) as [Hp Hr].
  { unfold serve_conn in E. rewrite (ints_exact im list_router Him) in E. destruct (request_parse ev s) as [[r|]|e| |]; try discriminate.
    injection E as E. assert (r = req) as <-; [|now split]. unfold list_router, router_route, router_new in E. cbn [app respond rt_matcher rt_handler] in E.
    repeat match type of E with context [if ?b then _ else _] => destruct b end; congruence. }
  assert (forall r (i : list str), fst (fst (match encode sz r budget with (out, Ok _) => (i, out, LDone) | (out, _) => (i, out, LPanicked) end)) = i) as Hpg.
  { intros r i. destruct (encode sz r budget) as [o [| | |]]; reflexivity. }
  destruct h; cbn [list_serve].
  - left. apply Hpg.
  - destruct (into_string (max_string ev) sz (rq_body req)) as [body|e| |] eqn:Eb; try (now left). destruct (starts_with (bs "message=") body) eqn:Es; [|left; apply Hpg].
    right. apply starts_with_spec in Es as (t & ->). unfold into_string in Eb. destruct (N.ltb (max_string ev) _) eqn:El; [discriminate|]. destruct (into_bytes sz (rq_body req)) as [d|e| |] eqn:Ei; try discriminate.
    destruct (valid_utf8 d) eqn:Ev; [|discriminate]. injection Eb as ->. apply valid_utf8_iff in Ev.
    exists req, t. split; [exact Hp|].
    assert (list_matches ev PostSubmit req = true) as Hm.
    { unfold list_router, router_route, router_new in Hr. cbn [app respond rt_matcher rt_handler] in Hr.
      destruct (list_matches ev GetSubmit req); [discriminate|]. destruct (list_matches ev PostSubmit req); [reflexivity|]. destruct (list_matches ev ReadInt req); discriminate. }
    cbn [list_matches] in Hm. apply andb_true_iff in Hm as [Hm1 Hm2]. split; [destruct (rq_method req); easy|]. split.
    { unfold does_match in Hm2. destruct (url_segments ev (rq_url req)) as [segs|]; [|discriminate]. apply match_loop_spec in Hm2.
      inversion Hm2 as [|? p ? ps E1 E2 E3 E4]; subst. inversion E2; subst. cbn in E1. now subst. }
    split; [exact Ei|]. split; [exact Ev|]. split; [rewrite <- too_long_iff; congruence|]. change (skipn 8 (bs "message=" ++ t)) with t. cbn [list_handle]. apply Hpg.
  - left. destruct (Nat.ltb _ 6); [reflexivity|]. destruct (parse_uint _ _); [|reflexivity]. cbn [list_handle]. destruct (_ <? _)%N; apply Hpg.
  - left. apply Hpg.
Qed.
Print Assumptions C95_only_posts_change.

(** After any number of connections the list holds what was posted before, in order, and any of them that asks for
    the list gets the items posted until then. *)
Inductive posting {U} (ev : env U) (sz : nat -> nat) (s : stream) : list str -> Prop :=
| posts_one req t : request_parse ev s = Ok (Some req) -> rq_method req = Post -> url_segments ev (rq_url req) = Some [bs "submit"] ->
    into_bytes sz (rq_body req) = Ok (bs "message=" ++ t) -> is_utf8 (bs "message=" ++ t) -> ~ too_long (max_string ev) (b_length (rq_body req)) ->
    posting ev sz s [t]
| posts_nothing : (forall req t, request_parse ev s = Ok (Some req) -> rq_method req = Post -> url_segments ev (rq_url req) = Some [bs "submit"] ->
    into_bytes sz (rq_body req) = Ok (bs "message=" ++ t) -> ~ is_utf8 (bs "message=" ++ t) \/ too_long (max_string ev) (b_length (rq_body req))) -> posting ev sz s [].
Lemma list_conn_items {U} (ev : env U) im sz pg items s budget l : image_ok im eq eq -> posting ev sz s l ->
  fst (fst (list_conn ev im sz pg items s budget)) = items ++ l.
Proof.
  intros Him Hl. destruct Hl as [req t Hp Hm Hs Hb Hu Hl|Hn].
  - rewrite (list_conn_routes ev im sz pg items s budget req Him Hp). cbn [list_matches]. rewrite Hm. unfold does_match. rewrite Hs. cbn [is_get is_post andb].
    replace (match_loop (match_at match_new (Static (bs "submit"))) [bs "submit"]) with true by (vm_compute; reflexivity). cbn [list_serve].
    unfold into_string. rewrite Hb. rewrite <- too_long_iff in Hl. apply Bool.not_true_iff_false in Hl. rewrite Hl. apply valid_utf8_iff in Hu. rewrite Hu. assert (starts_with (bs "message=") (bs "message=" ++ t) = true) as -> by (apply starts_with_spec; eauto).
    change (skipn 8 (bs "message=" ++ t)) with t. cbn [list_handle]. destruct (encode sz _ budget) as [o [| | |]]; reflexivity.
  - rewrite app_nil_r. destruct (C95_only_posts_change U ev im sz pg items s budget Him) as [H|(req & t & Hp & Hm & Hs & Hb & Hu & Hl & _)]; [exact H|].
    now destruct (Hn req t Hp Hm Hs Hb).
Qed.
Theorem C95_list_history : forall U (ev : env U) im sz pg, image_ok im eq eq -> forall conns ls items, Forall2 (fun c l => posting ev sz (fst c) l) conns ls ->
  fst (list_server ev im sz pg items conns) = items ++ concat ls /\
  forall before s budget after, conns = before ++ (s, budget) :: after ->
    exists ls1 ls2, ls = ls1 ++ ls2 /\ length ls1 = length before /\
    let '(_, out, e) := list_conn ev im sz pg (items ++ concat ls1) s budget in
    nth_error (snd (list_server ev im sz pg items conns)) (length before) = Some (out, e).
Proof.
  intros U ev im sz pg Him conns ls items F. revert items. induction F as [|[s b] l conns ls H F IH]; intros items.
  - split; [now rewrite app_nil_r|]. intros [|] ? ? ?; discriminate.
  - cbn [list_server fst] in *. pose proof (list_conn_items ev im sz pg items s b l Him H) as E.
    destruct (list_conn ev im sz pg items s b) as [[items1 out] e] eqn:Ec. cbn [fst] in E. subst items1.
    specialize (IH (items ++ l)) as [I1 I2]. destruct (list_server ev im sz pg (items ++ l) conns) as [items2 outs]. cbn [fst snd] in *. split.
    + rewrite I1. cbn [concat]. now rewrite app_assoc.
    + intros [|c before] s' b' after Eq; cbn [app] in Eq.
      * injection Eq as <- <- _. exists [], (l :: ls). split; [reflexivity|]. split; [reflexivity|]. cbn [concat]. rewrite app_nil_r, Ec. reflexivity.
      * injection Eq as _ Eq. destruct (I2 before s' b' after Eq) as (ls1 & ls2 & -> & Hl & Hx). exists (l :: ls1), ls2. split; [reflexivity|]. split; [cbn; now rewrite Hl|].
        cbn [concat]. rewrite app_assoc. exact Hx.
Qed.
Print Assumptions C95_list_history.

Definition list_image : image list_matcher list_handler :=
  Image list_matcher list_handler (fun m => match m with GetSubmit => 1 | PostSubmit => 2 | ReadInt => 3 | Anything => 4 end)%N
    (fun h => match h with ServeForm => 1 | ServePost => 2 | ServeRead => 3 | Serve404 => 4 end)%N
    (fun n => Some (if N.eqb n 1 then GetSubmit else if N.eqb n 2 then PostSubmit else if N.eqb n 3 then ReadInt else Anything))
    (fun n => Some (if N.eqb n 1 then ServeForm else if N.eqb n 2 then ServePost else if N.eqb n 3 then ServeRead else Serve404)).
Definition demo_pages : list_pages := ListPages (bs "<form>") (bs "added") (fun l => concat (map (fun i => bs "<p>Item: " ++ i ++ bs "</p>") l)).
Definition list_request_bytes (meth target : str) (body : str) : stream :=
  [Data (request_head meth target (map plain_field [(bs "Host", bs "h"); (bs "Content-Length", dec (N.of_nat (length body)))]) ++ body)].
Example C95_example :
  list_server (demo_env (@rev _)) list_image sz1 demo_pages []
    [(list_request_bytes (bs "POST") (bs "/submit") (bs "message=tea"), None); (list_request_bytes (bs "POST") (bs "/submit") (bs "oops"), None);
     (list_request_bytes (bs "POST") (bs "/submit") (bs "message=milk"), Some 0); (list_request_bytes (bs "GET") (bs "/read/7") [], None);
     (list_request_bytes (bs "GET") (bs "/read/-7") [], None); (list_request_bytes (bs "GET") (bs "/submit") [], None); (list_request_bytes (bs "PUT") (bs "/submit") [], None)]
  = ([bs "tea"; bs "milk"],
     [(text_page (bs "text/html") (bs "added"), LDone); (text_400, LDone); ([], LPanicked);
      (text_page (bs "text/html") (bs "<p>Item: tea</p><p>Item: milk</p>"), LDone); ([], LPanicked); (text_page (bs "text/html") (bs "<form>"), LDone); (text_404, LDone)]).
Proof. vm_compute. reflexivity. Qed.
Example C95_example_sent : let body := bs "message=tea" in let fs := map plain_field [(bs "Host", bs "h"); (bs "Content-Length", bs "11")] in
  image_ok list_image eq eq /\
  sent (demo_env (@rev _)) (list_request_bytes (bs "POST") (bs "/submit") body) (bs "POST") (bs "/submit") fs body [] /\
  all_utf8 fs /\ framed fs body body [] /\ ~ has_field (bs "transfer-encoding") fs /\ has_field (bs "content-length") fs /\
  last_field (bs "Host") (bs "h") fs /\ spelled_once (bs "host") fs /\ spelled_once (bs "content-length") fs /\
  addressed (bs "h") (bs "POST") (bs "/submit") (bs "http://h/submit") /\ url_parse (demo_env (@rev _)) (bs "http://h/submit") = Some (bs "http://h/submit") /\
  url_segments (demo_env (@rev _)) (bs "http://h/submit") = path_segments (url_path (demo_env (@rev _)) (bs "http://h/submit")) /\
  url_path (demo_env (@rev _)) (bs "http://h/submit") = bs "/submit".
Proof.
  intros body fs. pose proof (fields_lit [(bs "Host", bs "h"); (bs "Content-Length", bs "11")] ltac:(vm_compute; reflexivity)) as F.
  assert (forall name, name = bs "host" \/ name = bs "content-length" -> spelled_once name fs) as Hone.
  { intros name Hn f g [<-|[<-|[]]] [<-|[<-|[]]] E1 E2; try reflexivity; exfalso; rewrite <- E1 in E2; vm_compute in E2; discriminate. }
  split; [split; [intros []|intros []]; eexists; split; reflexivity|]. split.
  { split; [apply demo_ok|]. split; [exact httparse_reads_requests|]. split.
    - split; [discriminate|]. split; [apply tchars_lit; vm_compute; reflexivity|]. split; [discriminate|]. split; [apply targets_lit; vm_compute; reflexivity|].
      split; [|cbn; lia]. apply Forall_map. eapply Forall_impl; [|exact F]. now intros kv [H _].
    - unfold list_request_bytes. change (dec (N.of_nat (length body))) with (bs "11"). fold fs. rewrite <- (app_nil_r (request_head _ _ _ ++ body)) at 2. apply dv_data; [discriminate|constructor]. }
  split; [apply Forall_map; eapply Forall_impl; [|exact F]; now intros kv [_ H]|].
  assert (~ has_field (bs "transfer-encoding") fs) as Hte.
  { intros H. apply Exists_exists in H as (f & [<-|[<-|[]]] & E); vm_compute in E; discriminate. }
  assert (has_field (bs "content-length") fs) as Hcl by (apply Exists_cons_tl, Exists_cons_hd; reflexivity).
  split.
  { rewrite <- (app_nil_r body) at 1. apply by_length with (bs "11"); auto; try discriminate.
    - constructor; [intros E; vm_compute in E; discriminate|]. constructor; [reflexivity|constructor].
    - repeat constructor; vm_compute; discriminate. }
  split; [exact Hte|]. split; [exact Hcl|].
  split; [exists [], (plain_field (bs "Host", bs "h")); eexists; split; [reflexivity|]; split; [reflexivity|]; split; [reflexivity|]; repeat (constructor; [discriminate|]); constructor|].
  split; [apply Hone; auto|]. split; [apply Hone; auto|]. split; [exact (origin_form (bs "h") (bs "POST") (bs "/submit") (bs "submit") eq_refl)|].
  repeat split; vm_compute; reflexivity.
Qed.

(* ------------------------------------------------------------------ *)
(** ** C96. The form of the example has one named field, "message" (main.rs:40); a browser that submits it with
    [text] posts [form_body (bs "message") text]. *)
Lemma form_byte_plain c : form_byte c = [c] <-> form_plain c.
Proof.
  unfold form_byte, form_plain, form_plainb. split.
  - destruct (existsb _ _) eqn:E; [apply existsb_exists in E as (x & Hx & Ex); apply byte_eqb_eq in Ex; now subst|].
    destruct (byte_eqb c x20) eqn:E2; [|discriminate]. apply byte_eqb_eq in E2. subst. discriminate.
  - intros H. assert (existsb (byte_eqb c) (bs "abcdefghijklmnopqrstuvwxyzABCDEFGHIJKLMNOPQRSTUVWXYZ0123456789*-._") = true) as ->; [|reflexivity].
    apply existsb_exists. exists c. split; [exact H|apply byte_eqb_refl].
Qed.
Lemma form_encode_plain text : form_encode text = text <-> Forall form_plain text.
Proof.
  assert (forall c, 1 <= length (form_byte c)) as Hb by (intros c; unfold form_byte; destruct (form_plainb c), (byte_eqb c x20); cbn; lia).
  assert (forall t, length t <= length (form_encode t)) as Hl.
  { intros t. induction t as [|c t IH]; [cbn; lia|]. cbn [form_encode flat_map]. fold (form_encode t). rewrite app_length. specialize (Hb c). cbn [length]. lia. }
  split.
  - induction text as [|c t IH]; [constructor|]. cbn [form_encode flat_map]. fold (form_encode t). intros E. specialize (Hl t). specialize (Hb c).
    destruct (form_byte c) as [|d [|d2 r]] eqn:Ef; [cbn in Hb; lia| |].
    + injection E as -> E. constructor; [now apply form_byte_plain|auto].
    + apply (f_equal (@length byte)) in E. cbn [length app] in E. rewrite app_length in E. lia.
  - induction 1 as [|c t H F IH]; [reflexivity|]. cbn [form_encode flat_map]. fold (form_encode t). apply form_byte_plain in H. now rewrite H, IH.
Qed.
Lemma form_byte_ascii c : Forall (fun b => b2n b < 128)%N (form_byte c).
Proof. destruct c; vm_compute; repeat constructor. Qed.
Lemma form_encode_utf8 t : is_utf8 (form_encode t).
Proof.
  apply valid_utf8_iff, valid_utf8_ascii. induction t as [|c t IH]; [constructor|]. cbn [form_encode flat_map]. apply Forall_app. split; [apply form_byte_ascii|exact IH].
Qed.
(** Submitting the form adds the encoded text, not the text; the two are the same exactly if the text consists of
    letters, digits and [*-._]. *)
Theorem C96_submitted_text_partial : forall U (ev : env U) im sz pg items s meth target fs bytes tail k host uri u budget text rest,
  image_ok im eq eq -> positive sz -> sent ev s meth target fs bytes tail -> all_utf8 fs ->
  last_field k host fs -> to_lower k = bs "host" -> spelled_once (bs "host") fs ->
  addressed host meth target uri -> url_parse ev uri = Some u -> url_segments ev u = path_segments (url_path ev u) -> (31 <= usize_bits ev)%N ->
  to_lower meth = bs "post" -> url_path ev u = bs "/submit" -> framed fs bytes (form_body (bs "message") text) rest ->
  ~ has_field (bs "transfer-encoding") fs -> has_field (bs "content-length") fs ->
  (N.of_nat (length (form_body (bs "message") text)) < 2 ^ usize_bits ev)%N -> (N.of_nat (length (form_body (bs "message") text)) <= max_string ev)%N ->
  spelled_once (bs "content-length") fs ->
  let after := fst (fst (list_conn ev im sz pg items s budget)) in
  after = items ++ [form_encode text] /\ (after = items ++ [text] <-> Forall form_plain text).
Proof.
  intros U ev im sz pg items s meth target fs bytes tail k host uri u budget text rest Him Hsz Hsent Hu Hk Hkn Ho Ha Hp Hseg Hbits Hm Hpath Hf Hte Hcl Hmax Hlim Hone after.
  destruct (C95_list_routes U ev im sz pg items s meth target fs bytes tail k host uri u budget Him Hsz Hsent Hu Hk Hkn Ho Ha Hp Hseg Hbits) as (_ & H & _).
  destruct (H Hm Hpath _ _ Hf Hte (or_introl Hcl) Hmax Hone) as (H1 & _). destruct (H1 Hlim) as (H1' & _). clear H1. rename H1' into H1.
  destruct (H1 (form_encode text) eq_refl (form_encode_utf8 text)) as (H2 & _).
  assert (after = items ++ [form_encode text]) as E by (unfold after; now rewrite H2). split; [exact E|]. rewrite E, <- form_encode_plain. split.
  - intros E2. apply app_inv_head in E2. congruence.
  - now intros ->.
Qed.
Print Assumptions C96_submitted_text_partial.
Theorem C96_submitted_text_refuted : exists text, 
  fst (fst (list_conn (demo_env (@rev _)) list_image sz1 demo_pages [] (list_request_bytes (bs "POST") (bs "/submit") (form_body (bs "message") text)) None)) <> [text] /\ snd (list_conn (demo_env (@rev _)) list_image sz1 demo_pages [] (list_request_bytes (bs "POST") (bs "/submit") (form_body (bs "message") text)) None) = LDone.
Proof. exists (bs "two eggs"). split; [vm_compute; discriminate|vm_compute; reflexivity]. Qed.
Print Assumptions C96_submitted_text_refuted.
Example C96_example : Forall form_plain (bs "eggs_2") /\ form_encode (bs "50% off, two eggs") = bs "50%25+off%2C+two+eggs" /\ fst (fst (list_conn (demo_env (@rev _)) list_image sz1 demo_pages [] (list_request_bytes (bs "POST") (bs "/submit") (form_body (bs "message") (bs "eggs_2"))) None)) = [bs "eggs_2"].
Proof. split; [apply form_encode_plain; vm_compute; reflexivity|]. split; vm_compute; reflexivity. Qed.
