From Coq Require Import Sorting.Sorted.
From Verif Require Import Base HMap Num Utf8 Io IoProofs WsModel WsSpec WsBridge WsProofs WsProofs2 WsProofs3 WsLemmas
  HttpModel HttpSpec Httparse HttpProofs HttpProofs2 HttpProofs3 HttpProofs4 HttpLemmas HttpLemmas2 Sha1 UpgradeModel.
Ltac Zify.zify_post_hook ::= Z.div_mod_to_equations.

(** A digest function: 20 bytes for every input. *)
Definition digest (hash : str -> str) : Prop := forall s, length (hash s) = 20.

Lemma accept_value hash key : digest hash ->
  length (accept_header hash key) = 28 /\
  base64_decode (accept_header hash key) = Some (hash (key ++ bs "258EAFA5-E914-47DA-95CA-C5AB0DC85B11")).
Proof.
  intros H. unfold accept_header. split; [|apply base64_decode_encode]. now rewrite base64_length, H.
Qed.

(** The request asks for a websocket (with exactly these header spellings). *)
Definition asks_websocket (hs : hmap str) : Prop :=
  exists u c, get (bs "Upgrade") hs = Some u /\ to_lower u = bs "websocket" /\
    get (bs "Connection") hs = Some c /\ exists a b, to_lower c = a ++ bs "upgrade" ++ b.
Lemma should_upgrade_spec {U} (r : request U) : should_upgrade r = true <-> asks_websocket (rq_headers r).
Proof.
  unfold should_upgrade, asks_websocket. rewrite andb_true_iff. split.
  - destruct (get (bs "Upgrade") _) as [u|]; [|intros [? _]; discriminate].
    destruct (get (bs "Connection") _) as [c|]; [|intros [_ ?]; discriminate].
    intros [H1 H2]. exists u, c. apply str_eqb_eq in H1. apply contains_spec in H2. auto.
  - intros (u & c & -> & Hu & -> & Hc). split; [now apply str_eqb_eq|now apply contains_spec].
Qed.

Definition text_400 : str :=
  bs "HTTP/1.1 400 bad request" ++ CRLF ++ bs "Content-Type: text/html;charset=utf-8" ++ CRLF ++ CRLF ++
  bs "<h1>400: bad request</h1>".
Definition text_101 (accept : str) : str :=
  bs "HTTP/1.1 101 Web Socket Protocol Handshake" ++ CRLF ++ bs "Connection: Upgrade" ++ CRLF ++
  bs "Sec-WebSocket-Accept: " ++ accept ++ CRLF ++ bs "Upgrade: websocket" ++ CRLF ++ CRLF.

Lemma write_response_ok sz r wire : encode sz r None = (wire, Ok tt) ->
  forall budget, write_response sz r budget =
    match budget with
    | None => (wire, Ok tt)
    | Some n => (firstn n wire, if Nat.leb (length wire) n then Ok tt else Panic)
    end.
Proof.
  intros E [n|]; unfold write_response.
  - rewrite (encode_failing sz r n wire _ E). destruct (Nat.leb (length wire) n); reflexivity.
  - now rewrite E.
Qed.
Lemma encode_400 sz : positive sz -> encode sz err_400 None = (text_400, Ok tt).
Proof.
  intros Hsz. destruct (from_string_drain sz (bs "<h1>400: bad request</h1>") Hsz) as (ds & b' & E & Ec).
  rewrite (encode_exact sz err_400 ds b' E), Ec. reflexivity.
Qed.
Lemma encode_101 sz hash key : positive sz -> encode sz (switching hash key) None = (text_101 (accept_header hash key), Ok tt).
Proof.
  intros Hsz.
  assert (drain sz body_empty = ([], (Ok tt, body_empty))) as E by reflexivity.
  rewrite (encode_exact sz (switching hash key) [] body_empty E).
  unfold text_101, switching, rsb_build, rsb_status, rsb_header, rsb_new. cbn [rs_status rs_reason rs_headers pb_status pb_reason pb_headers].
  set (a := accept_header hash key). 
  change (sort_headers _) with [(bs "Connection", bs "Upgrade"); (bs "Sec-WebSocket-Accept", a); (bs "Upgrade", bs "websocket")].
  cbn [flat_map]. unfold header_line. cbn [fst snd]. rewrite <- !app_assoc. reflexivity.
Qed.

(** The peer's view: all of [wire] if nothing fails, a prefix of it and a crash otherwise. *)
Definition written (wire : str) (budget : option nat) : str :=
  match budget with None => wire | Some n => firstn n wire end.
Definition all_written (wire : str) (budget : option nat) : Prop :=
  match budget with None => True | Some n => length wire <= n end.

Lemma upgrade_exact {U} hash sz (r : request U) budget : positive sz ->
  (asks_websocket (rq_headers r) /\ (exists key, get (bs "Sec-WebSocket-Key") (rq_headers r) = Some key /\
     let wire := text_101 (accept_header hash key) in
     fst (stream_upgrade hash sz r budget) = written wire budget /\
     (all_written wire budget -> exists ws, snd (stream_upgrade hash sz r budget) = Ok (Some ws) /\ ws_st ws = WsOpen /\ ws_out ws = []) /\
     (~ all_written wire budget -> snd (stream_upgrade hash sz r budget) = Panic))) \/
  ((~ asks_websocket (rq_headers r) \/ get (bs "Sec-WebSocket-Key") (rq_headers r) = None) /\
     fst (stream_upgrade hash sz r budget) = written text_400 budget /\
     (all_written text_400 budget -> snd (stream_upgrade hash sz r budget) = Ok None) /\
     (~ all_written text_400 budget -> snd (stream_upgrade hash sz r budget) = Panic)).
Proof.
  intros Hsz. pose proof (write_response_ok sz err_400 _ (encode_400 sz Hsz) budget) as H4.
  unfold stream_upgrade. destruct (should_upgrade r) eqn:E.
  - apply should_upgrade_spec in E. unfold perform_upgrade.
    destruct (get (bs "Sec-WebSocket-Key") (rq_headers r)) as [key|] eqn:Ek.
    + left. split; [exact E|]. exists key. split; [reflexivity|]. cbn zeta.
      rewrite (write_response_ok sz _ _ (encode_101 sz hash key Hsz) budget).
      destruct budget as [n|]; cbn [written all_written].
      * destruct (Nat.leb_spec (length (text_101 (accept_header hash key))) n); cbn [res_map fst snd]; (split; [reflexivity|]); split; intros H'; try lia; try reflexivity.
        eexists. repeat split.
      * cbn [res_map fst snd]. split; [reflexivity|]. split; [intros _; eexists; repeat split|tauto].
    + right. split; [now right|]. rewrite H4. destruct budget as [n|]; cbn [written all_written].
      * destruct (Nat.leb_spec (length text_400) n); cbn [res_map fst snd]; (split; [reflexivity|]); split; intros H'; try lia; reflexivity.
      * cbn [res_map fst snd]. repeat split; tauto.
  - right. split.
    { left. intros H. apply should_upgrade_spec in H. congruence. }
    rewrite H4. destruct budget as [n|]; cbn [written all_written].
    + destruct (Nat.leb_spec (length text_400) n); cbn [res_map fst snd]; (split; [reflexivity|]); split; intros H'; try lia; reflexivity.
    + cbn [res_map fst snd]. repeat split; tauto.
Qed.

(** What the client's HTTP parser makes of the two responses. *)
Definition accept_fields (a : str) : list field :=
  map plain_field [(bs "Connection", bs "Upgrade"); (bs "Sec-WebSocket-Accept", a); (bs "Upgrade", bs "websocket")].
Lemma text_101_head a : text_101 a = response_head 101 (bs "Web Socket Protocol Handshake") (accept_fields a).
Proof.
  unfold text_101, response_head, accept_fields. cbn [flat_map map]. unfold field_text, plain_field. cbn [f_name f_pre f_value f_post fst snd].
  rewrite <- !app_assoc. reflexivity.
Qed.

(** Case-insensitive reading of the headers (RFC 7230 3.2): the same fields up to the case of names. *)
Definition same_fields (a b : hmap str) : Prop :=
  Forall2 (fun x y => to_lower (fst x) = to_lower (fst y) /\ snd x = snd y) a b.

Definition upgrade_headers : hmap str :=
  [(bs "Host", bs "h"); (bs "Upgrade", bs "websocket"); (bs "Connection", bs "Upgrade");
   (bs "Sec-WebSocket-Key", bs "dGhlIHNhbXBsZSBub25jZQ==")].
Definition upgrade_headers_lower : hmap str :=
  [(bs "host", bs "h"); (bs "upgrade", bs "websocket"); (bs "connection", bs "Upgrade");
   (bs "sec-websocket-key", bs "dGhlIHNhbXBsZSBub25jZQ==")].
Definition upgrade_request (hs : hmap str) : request str := Request hs Get body_empty (bs "http://h/").
Lemma case_sensitive : same_fields upgrade_headers upgrade_headers_lower /\
  fst (stream_upgrade sha1 sz1 (upgrade_request upgrade_headers) None) = text_101 (bs "s3pPLMBiTxaQ9kYGzzhZRbK+xOo=") /\
  fst (stream_upgrade sha1 sz1 (upgrade_request upgrade_headers_lower) None) = text_400.
Proof. split; [repeat constructor|]. split; vm_compute; reflexivity. Qed.
(** Another deviation: the Connection header is searched for the substring, not the token. *)
Lemma substring_accepted :
  fst (stream_upgrade sha1 sz1 (upgrade_request
     [(bs "Upgrade", bs "websocket"); (bs "Connection", bs "no-upgrades-please"); (bs "Sec-WebSocket-Key", bs "k")]) None)
  = text_101 (accept_header sha1 (bs "k")).
Proof. vm_compute. reflexivity. Qed.

(** With the canonical spellings the decision depends on these three values only. *)
Lemma upgrade_depends_on {U} hash sz (r1 r2 : request U) budget :
  (forall k, In k [bs "Upgrade"; bs "Connection"; bs "Sec-WebSocket-Key"] -> get k (rq_headers r1) = get k (rq_headers r2)) ->
  fst (stream_upgrade hash sz r1 budget) = fst (stream_upgrade hash sz r2 budget) /\
  ((exists ws, snd (stream_upgrade hash sz r1 budget) = Ok (Some ws)) <-> (exists ws, snd (stream_upgrade hash sz r2 budget) = Ok (Some ws))).
Proof.
  intros H. unfold stream_upgrade, should_upgrade, perform_upgrade.
  rewrite (H (bs "Upgrade")) by (cbn; auto). rewrite (H (bs "Connection")) by (cbn; auto). rewrite (H (bs "Sec-WebSocket-Key")) by (cbn; auto).
  destruct (_ && _).
  - destruct (get (bs "Sec-WebSocket-Key") _).
    + destruct (write_response sz _ budget) as [out [[]|e| |]]; cbn [res_map fst snd]; split; auto; try tauto. split; intros _; eauto.
    + destruct (write_response sz _ budget) as [out [[]|e| |]]; cbn [res_map fst snd]; split; auto; tauto.
  - destruct (write_response sz _ budget) as [out [[]|e| |]]; cbn [res_map fst snd]; split; auto; tauto.
Qed.

(* ------------------------------------------------------------------ *)
(** ** Frames sent after the handshake *)

(** Handshake bytes and the bytes behind them: the peer waited for the end of the head. *)
Lemma handshake_then_stream {U} (ev : env U) s head tail r :
  delivers false s head tail -> complete_head head -> request_parse ev s = Ok (Some r) -> handler_stream r = tail.
Proof.
  intros Hd Hc. rewrite <- (app_nil_r head) in Hd.
  destruct (@request_parse_head false U ev s head [] tail Hd Hc) as (rd & -> & (bytes & E & Hdel) & _).
  symmetry in E. apply app_eq_nil in E as [_ ->].
  assert (br_in rd = tail) as Hin.
  { inversion Hdel as [|d s' bytes' rest' Hne Hd' E1 E2|]; subst; auto; [|discriminate]. destruct d; [congruence|discriminate]. }
  unfold request_of_head. destruct (hq_status _); try discriminate;
  (destruct (hq_method _); [|discriminate]; destruct (insert_headers _ _); [|discriminate];
   destruct (find_header (bs "host") _); [|discriminate]; destruct (hq_path _); [|discriminate];
   destruct (request_url _ _ _ _); [|discriminate]; intros [= <-]; exact Hin).
Qed.

Lemma messages_after_handshake {U} (ev : env U) hash sz m s head r ws op ps rest :
  machine_ok m -> delivered m op ps -> positive sz ->
  delivers false s head (pieces_stream ps ++ rest) -> complete_head head ->
  request_parse ev s = Ok (Some r) -> snd (stream_upgrade hash sz r None) = Ok (Some ws) ->
  fst (ws_next m ws) = Ok (msg_of_pieces (op, ps)) /\ ws_in (snd (ws_next m ws)) = rest.
Proof.
  intros Hm Hdel Hsz Hd Hc Hp Hup. pose proof (handshake_then_stream ev s head _ r Hd Hc Hp) as Hs.
  assert (ws = ws_new (pieces_stream ps ++ rest) None) as ->.
  { unfold stream_upgrade, perform_upgrade in Hup. destruct (should_upgrade r).
    - destruct (get (bs "Sec-WebSocket-Key") _) as [key|].
      + rewrite (write_response_ok sz _ _ (encode_101 sz hash key Hsz) None) in Hup. cbn in Hup. injection Hup as <-. now rewrite Hs.
      + rewrite (write_response_ok sz _ _ (encode_400 sz Hsz) None) in Hup. cbn in Hup. discriminate.
    - rewrite (write_response_ok sz _ _ (encode_400 sz Hsz) None) in Hup. cbn in Hup. discriminate. }
  unfold ws_next. cbn [ws_st ws_new ws_in]. rewrite (msg_next_delivered m op ps rest Hm Hdel).
  destruct (msg_of_pieces (op, ps)) as [p|p|p|p]; try (split; reflexivity).
  all: unfold ws_write; cbn [ws_budget ws_st ws_in ws_out]; rewrite send_frame_none; split; reflexivity.
Qed.

(** A frame in the same segment as the handshake is lost. *)
Definition handshake_text : str := request_head (bs "GET") (bs "/") (map plain_field upgrade_headers).
Lemma early_frame_lost : exists r ws,
  request_parse (demo_env (fun m => m)) [Data (handshake_text ++ rfc_encode Len7 hello_frame)] = Ok (Some r) /\
  stream_upgrade sha1 sz1 r None = (text_101 (bs "s3pPLMBiTxaQ9kYGzzhZRbK+xOo="), Ok (Some ws)) /\
  fst (ws_next m32 ws) = Err ClientError.
Proof. do 2 eexists. split; [vm_compute; reflexivity|]. split; vm_compute; reflexivity. Qed.

Lemma b64_char_vis n : (33 <= b2n (b64_char n) <= 126)%N.
Proof.
  unfold b64_char. destruct (Nat.ltb_spec (N.to_nat n) (length b64_alphabet)).
  - assert (forallb (fun b => (33 <=? b2n b) && (b2n b <=? 126))%N b64_alphabet = true) as F by (vm_compute; reflexivity).
    rewrite forallb_forall in F. specialize (F _ (nth_In b64_alphabet x41 H)). lia.
  - rewrite nth_overflow by lia. vm_compute. split; discriminate.
Qed.
Lemma base64_vis s : forallb (fun b => (33 <=? b2n b) && (b2n b <=? 126))%N (base64 s) = true.
Proof.
  induction s as [|a|a b|a b c s IH] using list3_ind; cbn [base64 forallb]; [reflexivity| | |rewrite IH];
    repeat match goal with |- context [b64_char ?x] => let H := fresh in pose proof (b64_char_vis x) as H; revert H; generalize (b64_char x) end;
    intros; change (b2n x3d) with 61%N; lia.
Qed.
Lemma client_reads_101 hash key : let a := accept_header hash key in
  text_101 a = response_head 101 (bs "Web Socket Protocol Handshake") (accept_fields a) /\
  response_head_ok 101 (bs "Web Socket Protocol Handshake") (accept_fields a).
Proof.
  intros a. split; [apply text_101_head|]. split; [lia|]. split.
  - apply Forall_forall. intros b Hb.
    assert (forallb (fun b => (32 <=? b2n b) && (b2n b <=? 126))%N (bs "Web Socket Protocol Handshake") = true) as F by (vm_compute; reflexivity).
    rewrite forallb_forall in F. specialize (F b Hb). right. lia.
  - split; [|cbn; lia]. apply Forall_map. eapply Forall_impl; [|apply fields_lit]; [now intros kv [H _]|].
    cbn [forallb]. unfold field_litb at 2. cbn [fst snd]. unfold a, accept_header. rewrite base64_vis. vm_compute. reflexivity.
Qed.
