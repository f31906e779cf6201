(** WebSocket handshake: C22, C23, C24, C69. *)
From Verif Require Import Base HMap Io IoProofs WsModel WsSpec WsBridge WsProofs2 WsProofs3 WsLemmas
  HttpModel HttpSpec Httparse HttpLemmas HttpLemmas2 Sha1 UpgradeModel UpgradeProofs PropWs.

(** ** C22. [hash] is the SHA-1 of the crate `sha1`; [digest hash]: its results have 20 bytes.
    [base64_decode] is the RFC 4648 decoder of Sha1.v. *)
Theorem C22_accept_value : forall hash key, digest hash ->
  length (accept_header hash key) = 28 /\
  base64_decode (accept_header hash key) = Some (hash (key ++ bs "258EAFA5-E914-47DA-95CA-C5AB0DC85B11")).
Proof. exact accept_value. Qed.
Print Assumptions C22_accept_value.
Example C22_example : digest sha1 /\ accept_header sha1 (bs "dGhlIHNhbXBsZSBub25jZQ==") = bs "s3pPLMBiTxaQ9kYGzzhZRbK+xOo=".
Proof. split; [exact sha1_length|vm_compute; reflexivity]. Qed.

(** ** C23. [text_400], [text_101] are literal responses; [written w budget] is what the peer gets when
    the connection takes only [budget] bytes; a failed write is a crash, never a WebSocket. *)
Theorem C23_one_response : forall U hash sz (r : request U) budget, positive sz ->
  (asks_websocket (rq_headers r) /\ (exists key, get (bs "Sec-WebSocket-Key") (rq_headers r) = Some key /\
     let wire := text_101 (accept_header hash key) in
     fst (stream_upgrade hash sz r budget) = written wire budget /\
     (all_written wire budget -> exists ws, snd (stream_upgrade hash sz r budget) = Ok (Some ws) /\ ws_st ws = WsOpen /\ ws_out ws = []) /\
     (~ all_written wire budget -> snd (stream_upgrade hash sz r budget) = Panic))) \/
  ((~ asks_websocket (rq_headers r) \/ get (bs "Sec-WebSocket-Key") (rq_headers r) = None) /\
     fst (stream_upgrade hash sz r budget) = written text_400 budget /\
     (all_written text_400 budget -> snd (stream_upgrade hash sz r budget) = Ok None) /\
     (~ all_written text_400 budget -> snd (stream_upgrade hash sz r budget) = Panic)).
Proof. intros U. exact upgrade_exact. Qed.
Print Assumptions C23_one_response.
(** So this is the value a client that was upgraded finds in the response. *)
Theorem C22_value_sent : forall U hash sz (r : request U) budget ws, positive sz -> digest hash -> snd (stream_upgrade hash sz r budget) = Ok (Some ws) ->
  exists key before value after, get (bs "Sec-WebSocket-Key") (rq_headers r) = Some key /\
    fst (stream_upgrade hash sz r budget) = before ++ bs "Sec-WebSocket-Accept: " ++ value ++ CRLF ++ after /\
    length value = 28 /\ base64_decode value = Some (hash (key ++ bs "258EAFA5-E914-47DA-95CA-C5AB0DC85B11")).
Proof.
  intros U hash sz r budget ws Hsz Hd H. destruct (C23_one_response U hash sz r budget Hsz) as [(_ & key & Hk & Hf & Hok & Hno)|(_ & Hf & Hok & Hno)].
  - exists key. unfold text_101 in *. eexists (bs "HTTP/1.1 101 Web Socket Protocol Handshake" ++ CRLF ++ bs "Connection: Upgrade" ++ CRLF), (accept_header hash key), _.
    split; [exact Hk|]. split; [|now apply C22_accept_value].
    assert (all_written (text_101 (accept_header hash key)) budget) as Ha.
    { unfold all_written. destruct budget as [n|]; [|exact Logic.I]. destruct (Nat.le_gt_cases (length (text_101 (accept_header hash key))) n) as [Hl|Hl]; [exact Hl|]. exfalso.
      rewrite Hno in H; [discriminate|]. unfold all_written. fold (text_101 (accept_header hash key)). lia. }
    rewrite Hf. replace (written _ budget) with (text_101 (accept_header hash key)).
    + unfold text_101. rewrite <- !app_assoc. reflexivity.
    + unfold written. destruct budget as [n|]; [|reflexivity]. symmetry. apply firstn_all2. exact Ha.
  - exfalso. rewrite H in Hok, Hno. destruct budget as [n|]; [|discriminate (Hok Logic.I)].
    destruct (Nat.le_gt_cases (length text_400) n) as [Hl|Hl]; [discriminate (Hok Hl)|]. enough (~ all_written text_400 (Some n)) as Hn by discriminate (Hno Hn). unfold all_written. lia.
Qed.
Print Assumptions C22_value_sent.
(** The budget of the connection counts from its start: with the frames sent after the handshake, the peer gets the
    first [n] bytes of response and frames. *)
Theorem C21_after_handshake : forall U hash sz (r : request U) n out ws msgs, positive sz ->
  stream_upgrade hash sz r (Some n) = (out, Ok (Some ws)) ->
  out ++ ws_out (send_each msgs ws) = firstn n (out ++ encodings msgs) /\ length out <= n.
Proof.
  intros U hash sz r n out ws msgs Hsz H. assert (length out <= n /\ ws_budget ws = Some (n - length out) /\ ws_out ws = []) as (H1 & H2 & H3).
  { pose proof (C23_one_response U hash sz r (Some n) Hsz) as K. rewrite H in K. cbn [fst snd written] in K.
    assert (length out <= n) as Hl.
    { destruct K as [(_ & key & _ & -> & _)|(_ & -> & _)]; rewrite firstn_length; lia. }
    split; [exact Hl|]. unfold stream_upgrade in H. destruct (should_upgrade r).
    - destruct (perform_upgrade hash sz r (Some n)) as [o [[|]|e| |]]; try discriminate. injection H as <- <-. now split.
    - destruct (write_response sz err_400 (Some n)) as [o [x|e| |]]; discriminate. }
  split; [|exact H1]. destruct (send_each_budget msgs ws _ H2) as [H4 _]. rewrite H4, H3. cbn [app]. now rewrite firstn_app, (firstn_all2 out H1).
Qed.
Print Assumptions C21_after_handshake.
(** The 101 response is a well-formed HTTP response with exactly the three fields. *)
Theorem C23_client_reads : forall hash key, let a := accept_header hash key in
  text_101 a = response_head 101 (bs "Web Socket Protocol Handshake")
    (map plain_field [(bs "Connection", bs "Upgrade"); (bs "Sec-WebSocket-Accept", a); (bs "Upgrade", bs "websocket")]) /\
  response_head_ok 101 (bs "Web Socket Protocol Handshake")
    (map plain_field [(bs "Connection", bs "Upgrade"); (bs "Sec-WebSocket-Accept", a); (bs "Upgrade", bs "websocket")]).
Proof. exact client_reads_101. Qed.
Print Assumptions C23_client_reads.
Example C23_example : asks_websocket upgrade_headers /\ ~ asks_websocket upgrade_headers_lower.
Proof.
  split.
  - exists (bs "websocket"), (bs "Upgrade"). repeat split. exists [], []. reflexivity.
  - intros (u & c & H & _). vm_compute in H. discriminate.
Qed.

(** ** C24: names are compared case-sensitively (and "Connection" by substring) *)
Theorem C24_case_refuted : same_fields upgrade_headers upgrade_headers_lower /\
  fst (stream_upgrade sha1 sz1 (upgrade_request upgrade_headers) None) = text_101 (bs "s3pPLMBiTxaQ9kYGzzhZRbK+xOo=") /\
  fst (stream_upgrade sha1 sz1 (upgrade_request upgrade_headers_lower) None) = text_400.
Proof. exact case_sensitive. Qed.
Print Assumptions C24_case_refuted.
(** With the usual spelling, the outcome is a function of the three header values. *)
Theorem C24_case_partial : forall U hash sz (r1 r2 : request U) budget,
  (forall k, In k [bs "Upgrade"; bs "Connection"; bs "Sec-WebSocket-Key"] -> get k (rq_headers r1) = get k (rq_headers r2)) ->
  fst (stream_upgrade hash sz r1 budget) = fst (stream_upgrade hash sz r2 budget) /\
  ((exists ws, snd (stream_upgrade hash sz r1 budget) = Ok (Some ws)) <-> (exists ws, snd (stream_upgrade hash sz r2 budget) = Ok (Some ws))).
Proof. intros U. exact upgrade_depends_on. Qed.
Print Assumptions C24_case_partial.

(** ** C69: what the client sends behind the handshake *)
Theorem C69_early_frame_refuted : exists r ws,
  request_parse (demo_env (fun m => m)) [Data (handshake_text ++ rfc_encode Len7 hello_frame)] = Ok (Some r) /\
  stream_upgrade sha1 sz1 r None = (text_101 (bs "s3pPLMBiTxaQ9kYGzzhZRbK+xOo="), Ok (Some ws)) /\
  fst (ws_next m32 ws) = Err ClientError.
Proof. exact early_frame_lost. Qed.
Print Assumptions C69_early_frame_refuted.
(** If the frames arrive in later segments than the head, the first message is received and nothing
    of what follows it is consumed. *)
Theorem C69_early_frame_partial : forall U (ev : env U) hash sz m s head r ws op ps rest,
  machine_ok m -> delivered m op ps -> positive sz ->
  delivers false s head (pieces_stream ps ++ rest) -> complete_head head ->
  request_parse ev s = Ok (Some r) -> snd (stream_upgrade hash sz r None) = Ok (Some ws) ->
  fst (ws_next m ws) = Ok (msg_of_pieces (op, ps)) /\ ws_in (snd (ws_next m ws)) = rest.
Proof. intros U. exact messages_after_handshake. Qed.
Print Assumptions C69_early_frame_partial.
Example C69_example : exists r ws,
  request_parse (demo_env (fun m => m)) [Data handshake_text; Data (rfc_encode Len7 hello_frame)] = Ok (Some r) /\
  snd (stream_upgrade sha1 sz1 r None) = Ok (Some ws) /\ fst (ws_next m32 ws) = Ok (Text (bs "hello")).
Proof. do 2 eexists. split; [vm_compute; reflexivity|]. split; [vm_compute; reflexivity|]. vm_compute. reflexivity. Qed.
