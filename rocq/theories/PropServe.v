(** Serving a live view over HTTP: C82-C85. *)
From Verif Require InnerHtml.
From Verif Require Import Base HMap Num Io IoProofs WsSpec WsBridge WsProofs WsProofs2 WsProofs3 WsLemmas HttpModel HttpSpec Httparse
  HttpProofs2 HttpProofs3 HttpProofs4 HttpLemmas HttpLemmas2 Sha1 RouterModel RouterProofs UpgradeModel UpgradeProofs ServeModel PropHttp PropUpgrade PropRouter.
From Verif Require Import DomModel DomSpec HtmlModel Json ClientModel ClientSpec ComponentModel ComponentSpec ComponentProofs ComponentProofs2 ChatModel ChatSpec PropChat.
From Verif Require WsModel.
From Coq Require Import Lia.

(* ------------------------------------------------------------------ *)
(** ** C82. The two pages, byte for byte. *)
Definition text_page (ctype body : str) : str :=
  bs "HTTP/1.1 200 " ++ CRLF ++ bs "Content-Type: " ++ ctype ++ CRLF ++ CRLF ++ body.
Lemma encode_index sz : positive sz -> encode sz liveview_index None = (text_page (bs "text/html") index_html, Ok tt).
Proof.
  intros Hsz. destruct (from_string_drain sz index_html Hsz) as (ds & b' & E & Ec). rewrite (encode_exact sz liveview_index ds b' E), Ec. reflexivity.
Qed.
Lemma encode_js sz file : positive sz -> encode sz (liveview_js file) None = (text_page (bs "application/javascript") file, Ok tt).
Proof.
  intros Hsz. destruct (from_string_drain sz file Hsz) as (ds & b' & E & Ec). rewrite (encode_exact sz (liveview_js file) ds b' E), Ec. reflexivity.
Qed.
Lemma page_budget sz r wire : encode sz r None = (wire, Ok tt) -> forall budget,
  fst (encode sz r budget) = written wire budget /\
  (all_written wire budget -> snd (encode sz r budget) = Ok tt) /\ (~ all_written wire budget -> snd (encode sz r budget) = Err EOther).
Proof.
  intros E [n|]; cbn [written all_written]; [|rewrite E; repeat split; tauto].
  rewrite (encode_failing sz r n wire _ E). cbn [fst snd]. split; [reflexivity|]. destruct (Nat.leb_spec (length wire) n); split; intros; try lia; reflexivity.
Qed.
Theorem C82_pages_exact : forall sz budget file, positive sz ->
  (let wire := text_page (bs "text/html") index_html in
   fst (encode sz liveview_index budget) = written wire budget /\
   (all_written wire budget -> snd (encode sz liveview_index budget) = Ok tt) /\
   (~ all_written wire budget -> snd (encode sz liveview_index budget) = Err EOther)) /\
  (let wire := text_page (bs "application/javascript") file in
   fst (encode sz (liveview_js file) budget) = written wire budget /\
   (all_written wire budget -> snd (encode sz (liveview_js file) budget) = Ok tt) /\
   (~ all_written wire budget -> snd (encode sz (liveview_js file) budget) = Err EOther)).
Proof.
  intros sz budget file Hsz. cbv zeta. split; apply page_budget; [now apply encode_index|now apply encode_js].
Qed.
Print Assumptions C82_pages_exact.
(** A client that reads to the end of the connection gets the page, whatever the segments. *)
Theorem C82_pages_readable : forall U (ev : env U) file s ctype body, env_ok ev -> reads_responses (parse_head_resp ev) ->
  (ctype = bs "text/html" /\ body = index_html) \/ (ctype = bs "application/javascript" /\ body = file) ->
  delivers true s (text_page ctype body) [] ->
  exists r, response_parse ev s = Ok (Some r) /\ rs_status r = 200%N /\ get (bs "Content-Type") (rs_headers r) = Some ctype /\
    forall sz, positive sz -> into_bytes sz (rs_body r) = Ok body.
Proof.
  intros U ev file s ctype body He Hr Hc Hd.
  set (r0 := Response [(bs "Content-Type", ctype)] (body_from_string body) 200 []).
  assert (positive sz1) as H1 by (intros i; unfold sz1; lia).
  destruct (from_string_drain sz1 body H1) as (ds & b' & E & Ec).
  assert (into_bytes sz1 (rs_body r0) = Ok body) as Hb by (unfold into_bytes; cbn [r0 rs_body]; now rewrite E, Ec).
  assert (writable_headers (rs_headers r0)) as Hw.
  { split; [repeat constructor; intros []|]. split; [cbn; lia|]. constructor; [|constructor]. cbn [fst snd r0].
    destruct Hc as [[-> _]|[-> _]]; apply field_lit; vm_compute; reflexivity. }
  destruct (C35_response_round_trip U ev sz1 r0 body He Hr) as (wire & Ew & HR); auto.
  - cbn. lia.
  - constructor.
  - intros k v [[= <- <-]|[]] _. apply numeral_none. destruct Hc as [[-> _]|[-> _]]; reflexivity.
  - assert (encode sz1 r0 None = (text_page ctype body, Ok tt)) as Et.
    { rewrite (encode_exact sz1 r0 ds b' E), Ec. destruct Hc as [[-> _]|[-> _]]; reflexivity. }
    assert (wire = text_page ctype body) as -> by congruence.
    destruct (HR s Hd) as (r' & Hp & Hs & _ & Hh & Hbd). exists r'. split; [exact Hp|]. split; [exact Hs|]. split; [|exact Hbd]. rewrite (Hh (bs "Content-Type")). reflexivity.
Qed.
Print Assumptions C82_pages_readable.

(** The page is what loads the script: it has exactly one script element, with the relative source "./js". *)
Theorem C82_page_loads_script : exists before after,
  index_html = before ++ bs "<script src=""./js""></script>" ++ after /\
  (forall a b, before <> a ++ bs "<script" ++ b) /\ (forall a b, after <> a ++ bs "<script" ++ b).
Proof.
  set (tag := bs "<script src=""./js""></script>").
  pose (n := length (bs "
        <!DOCTYPE html>
        <html>
            <head>
                ")).
  exists (firstn n index_html), (skipn (n + length tag) index_html). split; [vm_compute; reflexivity|].
  assert (forall t : str, contains (bs "<script") t = false -> forall a b, t <> a ++ bs "<script" ++ b) as H.
  { intros t Ht a b E. apply Bool.not_true_iff_false in Ht. apply Ht. apply contains_spec. now exists a, b. }
  split; apply H; vm_compute; reflexivity.
Qed.
Print Assumptions C82_page_loads_script.

(** Not vacuous. *)
Example C82_example : exists r, response_parse (demo_env (@rev _)) [Data (firstn 30 (text_page (bs "text/html") index_html)); Data (skipn 30 (text_page (bs "text/html") index_html))] = Ok (Some r) /\
  into_bytes sz1 (rs_body r) = Ok index_html.
Proof. eexists. split; vm_compute; reflexivity. Qed.

(* ------------------------------------------------------------------ *)
(** ** C83. What a connection to the chat server gets, from the bytes of its request. [u] is the URL the request
    addresses; only its path segments matter. *)
Definition page_served (out : str * conn_end) (wire : str) (budget : option nat) : Prop :=
  fst out = written wire budget /\ (all_written wire budget -> snd out = Done) /\ (~ all_written wire budget -> snd out = ConnPanicked).
Lemma handle_page {U} hash sz file (req : request U) budget : positive sz ->
  page_served (chat_handle hash sz file ServeJs req budget) (text_page (bs "application/javascript") file) budget /\
  page_served (chat_handle hash sz file ServeIndex req budget) (text_page (bs "text/html") index_html) budget.
Proof.
  intros Hsz. unfold page_served, chat_handle.
  pose proof (page_budget sz _ _ (encode_js sz file Hsz) budget) as (A & B & C).
  pose proof (page_budget sz _ _ (encode_index sz Hsz) budget) as (A' & B' & C').
  split; [destruct (encode sz (liveview_js file) budget) as [out r]|destruct (encode sz liveview_index budget) as [out r]]; cbn [fst snd] in *; subst.
  - split; [now destruct r|]. split; intros H; [now rewrite (B H)|now rewrite (C H)].
  - split; [now destruct r|]. split; intros H; [now rewrite (B' H)|now rewrite (C' H)].
Qed.
Lemma chat_conn_routes {U} (ev : env U) im hash sz file s budget req : image_ok im eq eq -> request_parse ev s = Ok (Some req) ->
  chat_conn ev im hash sz file s budget =
  match url_segments ev (rq_url req) with
  | Some [seg] => if str_eqb (bs "js") seg then chat_handle hash sz file ServeJs req budget
                  else if str_eqb [] seg then chat_handle hash sz file ServeIndex req budget
                  else if str_eqb (bs "ws") seg then chat_handle hash sz file ServeWs req budget else ([], Done)
  | _ => ([], Done)
  end.
Proof.
  intros Him Hp. unfold chat_conn.
  destruct (serve_conn_spec ev im (fun m (r : request U) => does_match ev m (rq_url r)) sz chat_router s tt budget Him) as (H & _).
  rewrite (H req Hp). unfold chat_router, router_route, router_new. cbn [app respond rt_matcher rt_handler]. unfold does_match, match_at, match_new. cbn [app].
  destruct (url_segments ev (rq_url req)) as [[|seg [|seg2 segs]]|]; cbn [match_loop]; try reflexivity.
  - destruct (str_eqb (bs "js") seg); [reflexivity|]. destruct (str_eqb [] seg); [reflexivity|]. now destruct (str_eqb (bs "ws") seg).
  - destruct (str_eqb (bs "js") seg), (str_eqb [] seg), (str_eqb (bs "ws") seg); reflexivity.
Qed.
Theorem C83_chat_routes : forall U (ev : env U) im hash sz file s meth target fs rest tail k host uri u budget,
  image_ok im eq eq -> positive sz -> sent ev s meth target fs rest tail -> all_utf8 fs ->
  last_field k host fs -> to_lower k = bs "host" -> spelled_once (bs "host") fs ->
  addressed host meth target uri -> url_parse ev uri = Some u ->
  let conn := chat_conn ev im hash sz file s budget in
  (url_segments ev u = Some [bs "js"] -> page_served conn (text_page (bs "application/javascript") file) budget) /\
  (url_segments ev u = Some [[]] -> page_served conn (text_page (bs "text/html") index_html) budget) /\
  (url_segments ev u = Some [bs "ws"] -> forall up c key,
     last_field (bs "Upgrade") up fs -> last_field (bs "Connection") c fs -> last_field (bs "Sec-WebSocket-Key") key fs ->
     to_lower up = bs "websocket" -> (exists a b, to_lower c = a ++ bs "upgrade" ++ b) ->
     let wire := text_101 (accept_header hash key) in
     fst conn = written wire budget /\ (all_written wire budget -> exists ws, snd conn = Live ws /\ WsModel.ws_st ws = WsModel.WsOpen) /\
     (~ all_written wire budget -> snd conn = ConnPanicked)) /\
  (url_segments ev u = Some [bs "ws"] ->
     (forall v, ~ last_field (bs "Upgrade") v fs) \/ (forall v, ~ last_field (bs "Connection") v fs) \/ (forall v, ~ last_field (bs "Sec-WebSocket-Key") v fs) ->
     page_served conn text_400 budget) /\
  (~ In (url_segments ev u) [Some [bs "js"]; Some [[]]; Some [bs "ws"]] -> conn = ([], Done)).
Proof.
  intros U ev im hash sz file s meth target fs rest tail k host uri u budget Him Hsz Hsent Hu Hk Hkn Ho Ha Hp.
  destruct (C28_url_from_target U ev s meth target fs rest tail k host Hsent Hu Hk Hkn Ho) as (H & _).
  destruct (H uri u Ha Hp) as (req & Hreq & Hurl & _). pose proof (C27_headers_faithful U ev s meth target fs rest tail req Hsent Hreq) as Hh.
  cbv zeta. rewrite (chat_conn_routes ev im hash sz file s budget req Him Hreq), Hurl.
  destruct (handle_page hash sz file req budget Hsz) as [Pjs Pix].
  split; [intros ->; exact Pjs|]. split; [intros ->; exact Pix|].
  pose proof (C23_one_response U hash sz req budget Hsz) as C23.
  split; [|split].
  - intros -> up c key Lu Lc Lk Hup Hc. cbn [str_eqb]. replace (str_eqb (bs "js") (bs "ws")) with false by reflexivity. replace (str_eqb [] (bs "ws")) with false by reflexivity.
    replace (str_eqb (bs "ws") (bs "ws")) with true by reflexivity. cbn [chat_handle].
    apply Hh in Lu. apply Hh in Lc. apply Hh in Lk. destruct C23 as [(_ & key' & Ek & A & B & C)|[[Hn|Hn] _]].
    + rewrite Lk in Ek. injection Ek as <-. cbv zeta in A, B, C. destruct (stream_upgrade hash sz req budget) as [out r]. cbn [fst snd] in *. subst out.
      split; [destruct r as [[ws|]|e| |]; reflexivity|]. split.
      * intros Hw. destruct (B Hw) as (ws & -> & Hst & _). now exists ws.
      * intros Hw. now rewrite (C Hw).
    + exfalso. apply Hn. destruct Hc as (a & b & Hc). exists up, c. repeat split; auto. now exists a, b.
    + congruence.
  - intros -> Hmiss. replace (str_eqb (bs "js") (bs "ws")) with false by reflexivity. replace (str_eqb [] (bs "ws")) with false by reflexivity.
    replace (str_eqb (bs "ws") (bs "ws")) with true by reflexivity. cbn [chat_handle]. destruct C23 as [((u' & c & Eu & _ & Ec & _) & key' & Ek & _)|(_ & A & B & C)].
    + exfalso. apply Hh in Eu. apply Hh in Ec. apply Hh in Ek. destruct Hmiss as [Hm|[Hm|Hm]]; eapply Hm; eauto.
    + unfold page_served. destruct (stream_upgrade hash sz req budget) as [out r]. cbn [fst snd] in *. subst out. split; [destruct r as [[ws|]|e| |]; reflexivity|].
      split; intros Hw; [now rewrite (B Hw)|now rewrite (C Hw)].
  - intros Hn. destruct (url_segments ev u) as [[|seg [|seg2 segs]]|]; try reflexivity.
    destruct (str_eqb (bs "js") seg) eqn:E1; [apply str_eqb_eq in E1 as <-; exfalso; apply Hn; cbn; tauto|].
    destruct (str_eqb [] seg) eqn:E2; [apply str_eqb_eq in E2 as <-; exfalso; apply Hn; cbn; tauto|].
    destruct (str_eqb (bs "ws") seg) eqn:E3; [apply str_eqb_eq in E3 as <-; exfalso; apply Hn; cbn; tauto|]. reflexivity.
Qed.
Print Assumptions C83_chat_routes.
(** The other connections: one that ends before its request is complete is answered 400 and done with; one whose
    request cannot be read ends its process without an answer. *)
Theorem C83_unread_requests : forall U (ev : env U) im hash sz file s budget, image_ok im eq eq -> positive sz ->
  (forall bytes, delivers true s bytes [] -> no_head bytes ->
     chat_conn ev im hash sz file s budget = (written text_400 budget, Done)) /\
  (forall e, request_parse ev s = Err e -> chat_conn ev im hash sz file s budget = ([], ConnPanicked)).
Proof.
  intros U ev im hash sz file s budget Him Hsz. unfold chat_conn.
  destruct (serve_conn_spec ev im (fun m (r : request U) => does_match ev m (rq_url r)) sz chat_router s tt budget Him) as (_ & H2 & H3).
  split.
  - intros bytes Hd Hn. now rewrite (H2 (request_parse_eof ev s bytes Hd Hn) Hsz).
  - intros e E. now rewrite (H3 e E).
Qed.
Print Assumptions C83_unread_requests.
Definition chat_image : image matcher chat_handler :=
  Image matcher chat_handler (fun m => match m with [Static []] => 1 | [Static (x6a :: _)] => 2 | _ => 3 end)%N (fun h => match h with ServeJs => 1 | ServeIndex => 2 | ServeWs => 3 end)%N
    (fun n => Some (if N.eqb n 1 then [Static []] else if N.eqb n 2 then [Static (bs "js")] else [Static (bs "ws")]))
    (fun n => Some (if N.eqb n 1 then ServeJs else if N.eqb n 2 then ServeIndex else ServeWs)).
Example C83_example :
  chat_conn (demo_env (@rev _)) chat_image sha1 sz1 (bs "let x;") [Data (request_head (bs "GET") (bs "/js") (map plain_field [(bs "Host", bs "h")]))] None
    = (text_page (bs "application/javascript") (bs "let x;"), Done) /\
  chat_conn (demo_env (@rev _)) chat_image sha1 sz1 (bs "let x;") [Data (request_head (bs "GET") (bs "/") (map plain_field [(bs "Host", bs "h")]))] (Some 20)
    = (firstn 20 (text_page (bs "text/html") index_html), ConnPanicked) /\
  chat_conn (demo_env (@rev _)) chat_image sha1 sz1 (bs "let x;") [Data (request_head (bs "GET") (bs "/a/js") (map plain_field [(bs "Host", bs "h")]))] None = ([], Done) /\
  (exists ws, chat_conn (demo_env (@rev _)) chat_image sha1 sz1 (bs "let x;") [Data (request_head (bs "GET") (bs "/ws") (map plain_field upgrade_headers))] None
    = (text_101 (bs "s3pPLMBiTxaQ9kYGzzhZRbK+xOo="), Live ws)) /\
  chat_conn (demo_env (@rev _)) chat_image sha1 sz1 (bs "let x;") [Data (request_head (bs "GET") (bs "/ws") (map plain_field [(bs "Host", bs "h")]))] None = (text_400, Done).
Proof. split; [vm_compute; reflexivity|]. split; [vm_compute; reflexivity|]. split; [vm_compute; reflexivity|]. split; [eexists; vm_compute; reflexivity|vm_compute; reflexivity]. Qed.
Example C83_example_unread : delivers true [Data (bs "GET / HT")] (bs "GET / HT") [] /\ no_head (bs "GET / HT") /\
  chat_conn (demo_env (@rev _)) chat_image sha1 sz1 [] [Data (bs "GET / HT")] None = (text_400, Done) /\
  chat_conn (demo_env (@rev _)) chat_image sha1 sz1 [] [Data (request_head (bs "GET") (bs "/") [])] None = ([], ConnPanicked).
Proof.
  split; [apply (dv_data true (bs "GET / HT") [] [] []); [discriminate|constructor]|]. split; [|split; vm_compute; reflexivity].
  intros p q E. assert (contains (CRLF ++ CRLF) (bs "GET / HT") = true) as H by (apply contains_spec; exists p, q; now rewrite <- app_assoc). vm_compute in H. discriminate H.
Qed.
Example C83_example_sent : sent (demo_env (@rev _)) [Data (request_head (bs "GET") (bs "/ws") (map plain_field upgrade_headers))] (bs "GET") (bs "/ws") (map plain_field upgrade_headers) [] [] /\
  all_utf8 (map plain_field upgrade_headers) /\ last_field (bs "Host") (bs "h") (map plain_field upgrade_headers) /\ spelled_once (bs "host") (map plain_field upgrade_headers) /\
  addressed (bs "h") (bs "GET") (bs "/ws") (bs "http://h/ws") /\ url_segments (demo_env (@rev _)) (bs "http://h/ws") = Some [bs "ws"].
Proof.
  pose proof (fields_lit upgrade_headers ltac:(vm_compute; reflexivity)) as F.
  split; [|split; [|split; [|split; [|split]]]].
  - split; [apply demo_ok|]. split; [exact httparse_reads_requests|]. split.
    + split; [discriminate|]. split; [apply tchars_lit; vm_compute; reflexivity|]. split; [discriminate|]. split; [apply targets_lit; vm_compute; reflexivity|].
      split; [|cbn; lia]. apply Forall_map. eapply Forall_impl; [|exact F]. now intros kv [H _].
    + apply dv_data; [discriminate|]. constructor.
  - apply Forall_map. eapply Forall_impl; [|exact F]. now intros kv [_ H].
  - exists [], (plain_field (bs "Host", bs "h")). eexists. split; [reflexivity|]. split; [reflexivity|]. split; [reflexivity|]. repeat (constructor; [discriminate|]). constructor.
  - assert (forall f, In f (map plain_field upgrade_headers) -> to_lower (f_name f) = bs "host" -> f_name f = bs "Host") as H; [|intros f g Hf Hg E1 E2; rewrite (H f Hf E1), (H g Hg E2); reflexivity].
    intros f [<-|[<-|[<-|[<-|[]]]]]; vm_compute; intros E; try reflexivity; discriminate E.
  - exact (origin_form (bs "h") (bs "GET") (bs "/ws") (bs "ws") eq_refl).
  - vm_compute. reflexivity.
Qed.

(* ------------------------------------------------------------------ *)
(** ** C84. Where to mount the script. init.rs:5-6: "make sure that you mount an instance of `js` at
    `/<path of this route>/js`". *)
Definition below (page name : str) : str :=
  match rev page with x2f :: _ => page ++ name | _ => page ++ bs "/" ++ name end.
Lemma upto_slash p : upto_last_slash (p ++ [x2f]) = p ++ [x2f].
Proof.
  induction p as [|c p IH]; [reflexivity|]. cbn [app upto_last_slash]. rewrite existsb_app. cbn [existsb]. rewrite orb_true_r. now rewrite IH.
Qed.
Lemma below_last q c name : below (q ++ [c]) name = if byte_eqb x2f c then (q ++ [c]) ++ name else (q ++ [c]) ++ bs "/" ++ name.
Proof. unfold below. rewrite rev_app_distr. cbn [rev app]. destruct c; reflexivity. Qed.
Lemma upto_no_slash p q : existsb (byte_eqb x2f) q = false -> upto_last_slash (p ++ x2f :: q) = p ++ [x2f].
Proof.
  intros Hq. induction p as [|c p IH]; cbn [app upto_last_slash].
  - now rewrite Hq.
  - rewrite existsb_app. cbn [existsb]. rewrite orb_true_r. now rewrite IH.
Qed.
(** A page mounted as documented, but at a path that does not end in a slash, loads no script, and its socket
    would be looked for elsewhere too. *)
Theorem C84_mount_refuted : exists page, script_path page <> below page (bs "js") /\ script_path page = bs "/js" /\
  below page (bs "js") = bs "/app/js" /\ socket_path page = bs "/appws".
Proof. exists (bs "/app"). split; [vm_compute; discriminate|]. repeat split; vm_compute; reflexivity. Qed.
Print Assumptions C84_mount_refuted.
(** Exactly the pages whose path ends in a slash (in particular "/") find script and socket below themselves. *)
Theorem C84_mount_partial : forall path, let page := x2f :: path in
  (script_path page = below page (bs "js") <-> exists p, page = p ++ [x2f]) /\
  (socket_path page = below page (bs "ws") <-> exists p, page = p ++ [x2f]).
Proof.
  intros path page. unfold script_path, socket_path.
  destruct (rev page) as [|c r] eqn:E; [apply (f_equal (@length byte)) in E; rewrite rev_length in E; discriminate|].
  apply (f_equal (@rev byte)) in E. rewrite rev_involutive in E. cbn [rev] in E. rewrite E. rewrite !below_last.
  assert (forall d, (exists p, rev r ++ [d] = p ++ [x2f]) -> d = x2f) as Hd by (intros d (p & Hp); now apply app_inj_tail in Hp as [_ ->]).
  destruct (byte_eqb x2f c) eqn:Ec.
  - apply byte_eqb_eq in Ec as <-. rewrite upto_slash. split; (split; [intros _; now exists (rev r)|reflexivity]).
  - split; split; intros H; try (apply Hd in H; subst c; discriminate Ec); exfalso.
    + assert (length (upto_last_slash (rev r ++ [c])) <= length (rev r ++ [c])) as L.
      { clear. induction (rev r ++ [c]) as [|x l IH]; [cbn; lia|]. cbn [upto_last_slash length]. destruct (existsb _ l); [cbn [length]; lia|]. destruct (byte_eqb x2f x); cbn [length]; lia. }
      apply (f_equal (@length byte)) in H. rewrite !app_length in H. rewrite !app_length in L. cbn [length] in *. change (length (bs "js")) with 2 in H. change (length (bs "/")) with 1 in H. lia.
    + apply (f_equal (@length byte)) in H. rewrite !app_length in H. change (length (bs "ws")) with 2 in H. change (length (bs "/")) with 1 in H. lia.
Qed.
Print Assumptions C84_mount_partial.
Example C84_example : script_path (bs "/") = bs "/js" /\ socket_path (bs "/") = bs "/ws" /\ script_path (bs "/app/") = bs "/app/js".
Proof. repeat split; vm_compute; reflexivity. Qed.

(* ------------------------------------------------------------------ *)
(** ** C85. A chat session from the first byte of the connection to the page: the handshake is answered, then the
    messages the client sends after it are the ones the component gets, and what the server writes makes the browser
    show the page of the component's state. *)
Theorem C85_chat_session : forall U (ev : env U) im hash sz file m s head req key (xs : list (list piece)) rest,
  machine_ok m -> image_ok im eq eq -> positive sz ->
  delivers false s head (flat_map pieces_stream xs ++ rest) -> complete_head head -> request_parse ev s = Ok (Some req) ->
  url_segments ev (rq_url req) = Some [bs "ws"] -> asks_websocket (rq_headers req) -> get (bs "Sec-WebSocket-Key") (rq_headers req) = Some key ->
  Forall (delivered m 1) xs ->
  exists ws, chat_conn ev im hash sz file s None = (text_101 (accept_header hash key), Live ws) /\
    forall reparse, InnerHtml.standard reparse -> forall e0 p ms ctx c dom ls out,
    ws_of (map snd ms) = reads m (length xs) ws ->
    main_loop chat_component tt true ((e0, WhoAmI p) :: ms) = (Looping ctx c dom ls, out) ->
    Forall (fun em => typed_plainly (snd em) /\ forall r, fst em <> Some (BrowserRequest r)) ms ->
    Forall (fun t => (N.of_nat (length t) < 2 ^ 63)%N) out ->
    ws_of (map snd ms) = map (fun ps => inl (WsModel.Text (payload_of (map pc_frame ps)))) xs /\
    exists j fs y, into_element (chat_page c) 0 = Some (dom, j) /\ frames_in (sent_bytes out) = Some fs /\
      Forall (fun f => rf_fin f = true /\ rf_rsv f = 0%N /\ rf_op f = 1%N /\ rf_key f = None) fs /\
      browse reparse (map rf_payload fs) [] = ([y], true) /\ shows y dom.
Proof.
  intros U ev im hash sz file m s head req key xs rest Hm Him Hsz Hd Hc Hp Hseg Hask Hkey Hx.
  exists (WsModel.ws_new (flat_map pieces_stream xs ++ rest) None). split.
  - rewrite (chat_conn_routes ev im hash sz file s None req Him Hp), Hseg. replace (str_eqb (bs "js") (bs "ws")) with false by reflexivity.
    replace (str_eqb [] (bs "ws")) with false by reflexivity. replace (str_eqb (bs "ws") (bs "ws")) with true by reflexivity. cbn [chat_handle].
    unfold stream_upgrade. rewrite (proj2 (should_upgrade_spec req) Hask). unfold perform_upgrade. rewrite Hkey.
    rewrite (write_response_ok sz _ _ (encode_101 sz hash key Hsz) None). cbn [res_map budget_left]. now rewrite (handshake_then_stream ev s head _ req Hd Hc Hp).
  - intros reparse Hre e0 p ms ctx c dom ls out Hw Hrun Hplain Hsz'. split.
    + rewrite Hw. unfold WsModel.ws_new. pose proof (reads_delivered m (map (fun ps => (1%N, ps)) xs) rest Hm) as R.
      rewrite map_length in R. rewrite map_map in R. rewrite <- (R ltac:(apply Forall_map; exact Hx) [] : _ = map (fun ps => inl (WsModel.Text (payload_of (map pc_frame ps)))) xs). do 3 f_equal.
      clear. induction xs as [|x xs IH]; [reflexivity|]. cbn. now rewrite IH.
    + destruct (C75_chat_in_browser_partial reparse Hre e0 p ms ctx c dom ls out Hrun Hplain) as (j & y & Hi & Hb & Hs & _).
      exists j, (map text_frame out), y. split; [exact Hi|]. split; [now apply sent_frames|]. split; [apply Forall_forall; intros f Hf; apply in_map_iff in Hf as (t & <- & _); repeat split|].
      rewrite map_map. cbn [text_frame rf_payload]. rewrite map_id. auto.
Qed.
Print Assumptions C85_chat_session.
Definition typed_frame (text : str) : list piece := [whole (client true 0 1 text)].
Definition chat_typing : list (list piece) :=
  [typed_frame (bs "{""listener"":""set_username"",""payload"":{""value"":""ann""}}"); typed_frame (bs "{""listener"":""initialize_username""}");
   typed_frame (bs "{""listener"":""update_message_contents"",""payload"":{""value"":""two""}}")].
Definition chat_bytes : stream := Data (request_head (bs "GET") (bs "/ws") (map plain_field upgrade_headers)) :: flat_map pieces_stream chat_typing.
(** Not vacuous: a connection with a handshake and three messages; a message of another user in between. *)
Example C85_example : exists req, request_parse (demo_env (@rev _)) chat_bytes = Ok (Some req) /\ url_segments (demo_env (@rev _)) (rq_url req) = Some [bs "ws"] /\
  asks_websocket (rq_headers req) /\ Forall (delivered m32 1) chat_typing /\
  exists ws ms dom ls out, chat_conn (demo_env (@rev _)) chat_image sha1 sz1 [] chat_bytes None = (text_101 (bs "s3pPLMBiTxaQ9kYGzzhZRbK+xOo="), Live ws) /\
    ws_of (map snd ms) = reads m32 3 ws /\ inputs_of (map snd ms) = [ReceiveMessage (ChatMessage 2 (bs "bob") (bs "hi"))] /\
    main_loop chat_component tt true ((None, WhoAmI 9%N) :: ms) = (Looping 9%N (Initialized (bs "ann") 4 [ChatMessage 2 (bs "bob") (bs "hi")] (bs "two")) dom ls, out).
Proof.
  eexists. split; [vm_compute; reflexivity|]. split; [vm_compute; reflexivity|]. split.
  { apply should_upgrade_spec. vm_compute. reflexivity. }
  split.
  { assert (forall t, length t < 126 -> Utf8.valid_utf8 t = true -> delivered m32 1 (typed_frame t)) as H1.
    { intros t Hl Hu. assert (client_frame m32 Len7 (client true 0 1 t)) as Hcf by (apply client_ok; [lia|lia|exact Hl]).
      unfold delivered, typed_frame, deliverable, payload_fits, payload_of. cbn [map pc_frame whole client rf_payload concat]. rewrite app_nil_r.
      split; [constructor; [split; [exact Hcf|apply whole_cut; apply Hcf]|constructor]|]. split; [left; now eexists|]. split; [now auto|]. split; [cbn; lia|].
      intros _. now apply Utf8.valid_utf8_iff. }
    repeat (constructor; [apply H1; [cbn; lia|vm_compute; reflexivity]|]). constructor. }
  eexists _, [chat_says None (bs "{""listener"":""set_username"",""payload"":{""value"":""ann""}}");
              chat_says (Some (UserRegistered 4 (bs "ann"))) (bs "{""listener"":""initialize_username""}");
              (None, Input (ReceiveMessage (ChatMessage 2 (bs "bob") (bs "hi"))));
              chat_says None (bs "{""listener"":""update_message_contents"",""payload"":{""value"":""two""}}")], _, _, _.
  split; [vm_compute; reflexivity|]. split; [vm_compute; reflexivity|]. split; [reflexivity|]. vm_compute. reflexivity.
Qed.
