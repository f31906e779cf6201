(** WebSocket properties C01-C21. Statements use the public types of WsModel and the independent
    RFC specification in WsSpec; proofs are lemmas from WsProofs*.v and WsLemmas.v. *)
From Verif Require Import Base Io IoProofs Utf8 WsModel WsSpec WsBridge WsProofs WsProofs2 WsProofs3 WsLoss WsLemmas.

(** ** C01 *)
Theorem C01_sent_message_decodes : forall msg rest,
  (N.of_nat (length (message_payload msg)) < 2 ^ 63)%N ->
  exists wire, send_message msg None = (wire, Ok tt) /\
    rfc_decode (wire ++ rest) = Some (RFC true 0 (message_op msg) None (message_payload msg), rest).
Proof. exact sent_message_decodes. Qed.
Print Assumptions C01_sent_message_decodes.
Example C01_example : exists wire, send_message (Text (bs "hello")) None = (wire, Ok tt) /\ length wire = 7.
Proof. eexists. split; reflexivity. Qed.

(** ** C02: false for exactly one length, 65535 *)
Theorem C02_minimal_length_refuted : exists msg,
  minimal_form (N.of_nat (length (message_payload msg))) = Len16 /\
  fst (send_message msg None) = rfc_encode Len64 (RFC true 0 (message_op msg) None (message_payload msg)).
Proof. exact minimal_length_refuted. Qed.
Print Assumptions C02_minimal_length_refuted.
Theorem C02_minimal_length_partial : forall msg,
  N.of_nat (length (message_payload msg)) <> 65535%N ->
  fst (send_message msg None) =
  rfc_encode (minimal_form (N.of_nat (length (message_payload msg))))
             (RFC true 0 (message_op msg) None (message_payload msg)).
Proof. exact minimal_length_elsewhere. Qed.
Print Assumptions C02_minimal_length_partial.
Example C02_example : N.of_nat (length (message_payload (Binary (repeat x61 200)))) <> 65535%N /\
  minimal_form 200 = Len16.
Proof. split; [discriminate|reflexivity]. Qed.

(** ** C03 *)
Theorem C03_client_frame_parsed : forall m fm f cs rest,
  machine_ok m -> client_frame m fm f -> well_cut fm f cs ->
  frame_parse m (map Data cs ++ rest) = (Ok (frame_view f), rest).
Proof. exact parse_well_cut. Qed.
Print Assumptions C03_client_frame_parsed.
(** in particular when it arrives as one segment *)
Theorem C03_single_segment : forall m fm f rest,
  machine_ok m -> client_frame m fm f ->
  frame_parse m (Data (rfc_encode fm f) :: rest) = (Ok (frame_view f), rest).
Proof. exact parse_single. Qed.
Print Assumptions C03_single_segment.
Example C03_example : machine_ok m32 /\ client_frame m32 Len7 hello_frame /\ rf_payload hello_frame = bs "hello".
Proof. split; [exact m32_ok|]. split; [apply client_ok; cbn; lia|reflexivity]. Qed.
Example C03_example_cut : well_cut Len7 hello_frame [firstn 8 (rfc_encode Len7 hello_frame); skipn 8 (rfc_encode Len7 hello_frame)].
Proof. exact example_cut. Qed.

(** ** C04 *)
Theorem C04_segmentation_refuted : exists f cs1 cs2,
  client_frame m32 Len7 f /\ segments cs1 (rfc_encode Len7 f) /\ segments cs2 (rfc_encode Len7 f) /\
  fst (frame_parse m32 (map Data cs1)) = Ok (frame_view f) /\
  fst (frame_parse m32 (map Data cs2)) = Err InsufficientData.
Proof. exact segmentation_refuted. Qed.
Print Assumptions C04_segmentation_refuted.
(** Exactly when it works: no boundary inside the first two bytes or the masking key. *)
Theorem C04_segmentation_partial : forall m fm f cs rest,
  machine_ok m -> client_frame m fm f -> rf_payload f <> [] -> segments cs (rfc_encode fm f) ->
  (~ cut_at cs 1 -> (forall i, 0 < i < 4 -> ~ cut_at cs (head_len fm + i)) ->
     frame_parse m (map Data cs ++ rest) = (Ok (frame_view f), rest)) /\
  (cut_at cs 1 \/ (exists i, 0 < i < 4 /\ cut_at cs (head_len fm + i)) ->
     exists s', frame_parse m (map Data cs ++ rest) = (Err InsufficientData, s')).
Proof. exact parse_nonempty. Qed.
Print Assumptions C04_segmentation_partial.

(** ** C05 *)
Theorem C05_unmasked_rejected : forall m fm fin rsv op n tail cs rest,
  (rsv < 8)%N -> (op < 16)%N -> form_fits fm n -> (0 < n)%N ->
  segments cs (rfc_head fm fin rsv op false n ++ tail) -> ~ cut_at cs 1 ->
  exists s', frame_parse m (map Data cs ++ rest) = (Err MaskNotSet, s').
Proof. exact parse_unmasked. Qed.
Print Assumptions C05_unmasked_rejected.
(** and on no stream whatsoever (any segmentation, errors included) is such a frame delivered *)
Theorem C05_unmasked_never_delivered : forall m s a b ext tail f s',
  machine_ok m -> bytes_of s = a :: b :: ext ++ tail -> length ext = ext_len b ->
  mask_bit b = false -> (0 < declared_len b ext)%N ->
  frame_parse m s <> (Ok f, s').
Proof. exact unmasked_never_ok. Qed.
Print Assumptions C05_unmasked_never_delivered.
Example C05_example : segments [[n2b 129; n2b 5]; bs "hello"] (rfc_head Len7 true 0 1 false 5 ++ bs "hello") /\
  ~ cut_at [[n2b 129; n2b 5]; bs "hello"] 1.
Proof. exact example_unmasked. Qed.

(** ** C06 *)
Theorem C06_truncated_error : forall m fm fin rsv op n key enc cs,
  machine_ok m -> (rsv < 8)%N -> (op < 16)%N -> form_fits fm n -> (n <= max_alloc m)%N -> length key = 4 ->
  (N.of_nat (length enc) < n)%N ->
  segments cs (rfc_head fm fin rsv op true n ++ key ++ enc) ->
  ~ cut_at cs 1 -> (forall i, 0 < i < 4 -> ~ cut_at cs (head_len fm + i)) ->
  exists s', frame_parse m (map Data cs) =
    (Err (if fin then PfIoError else WaitForNextFrame (n - N.of_nat (length enc))), s').
Proof. exact truncated_exact. Qed.
Print Assumptions C06_truncated_error.
(** whatever the segmentation and wherever the stream ends, an incomplete frame is an error *)
Theorem C06_truncated_never_delivered : forall m fm f s missing,
  machine_ok m -> client_frame m fm f -> rf_payload f <> [] ->
  missing <> [] -> bytes_of s ++ missing = rfc_encode fm f ->
  exists e s', frame_parse m s = (Err e, s').
Proof. exact truncated_never_ok. Qed.
Print Assumptions C06_truncated_never_delivered.
Example C06_example : exists s missing, missing <> [] /\ bytes_of s ++ missing = rfc_encode Len7 hello_frame /\
  client_frame m32 Len7 hello_frame.
Proof. exact example_truncated. Qed.

(** ** C07 *)
Theorem C07_declared_length_refuted : exists s f s' a b ext tl,
  machine_ok m32 /\ frame_parse m32 s = (Ok f, s') /\ bytes_of s = a :: b :: ext ++ tl /\ length ext = ext_len b /\
  N.of_nat (length (decoded f)) <> declared_len b ext.
Proof. exact declared_length_refuted. Qed.
Print Assumptions C07_declared_length_refuted.
Theorem C07_declared_length_partial : forall m s f s',
  machine_ok m -> frame_parse m s = (Ok f, s') ->
  exists a b ext tl, bytes_of s = a :: b :: ext ++ tl /\ length ext = ext_len b /\
    N.of_nat (length (decoded f)) = (declared_len b ext mod 2 ^ ptr_width m)%N /\
    (ptr_width m = 64%N \/ (declared_len b ext < 2 ^ ptr_width m)%N ->
     N.of_nat (length (decoded f)) = declared_len b ext).
Proof. exact declared_length. Qed.
Print Assumptions C07_declared_length_partial.

(** ** C08 *)
Theorem C08_no_bytes_lost_refuted : exists f cs,
  client_frame m32 Len7 f /\ segments cs (rfc_encode Len7 f ++ rfc_encode Len7 f) /\
  fst (times 2 (frame_parse m32) (map Data cs)) = [Ok (frame_view f); Err InsufficientData].
Proof. exact coalesced_refuted. Qed.
Print Assumptions C08_no_bytes_lost_refuted.
(** No loss when a segment never contains bytes of two frames. *)
Theorem C08_no_bytes_lost_partial : forall m ps rest,
  machine_ok m -> Forall (piece_ok m) ps ->
  times (length ps) (frame_parse m) (pieces_stream ps ++ rest) =
  (map (fun p => Ok (frame_view (pc_frame p))) ps, rest).
Proof. exact frames_in_order. Qed.
Print Assumptions C08_no_bytes_lost_partial.
(** Whatever arrives, what a successful call took from the connection is one frame (header, key if the
    declared length is not 0, payload) and then a run of fewer than 8192 further bytes, which are lost. *)
Theorem C08_lost_bytes_partial : forall m s f s',
  machine_ok m -> frame_parse m s = (Ok f, s') ->
  exists a b ext key enc lost,
    bytes_of s = (a :: b :: ext ++ key ++ enc) ++ lost ++ bytes_of s' /\
    length ext = ext_len b /\ (length lost < N.to_nat 8192)%nat /\
    (N.of_nat (length enc) = declared_len b ext mod 2 ^ ptr_width m)%N /\
    (declared_len b ext = 0 /\ key = [] \/ 0 < declared_len b ext /\ mask_bit b = true /\ length key = 4%nat)%N /\
    decoded f = xor_key key enc.
Proof. exact frame_parse_loss. Qed.
Print Assumptions C08_lost_bytes_partial.
(** The loss exactly: when the segment holding the last byte of a frame also carries [extra] (the
    beginning of what follows) and has at most 8192 bytes, the frame is delivered and precisely [extra]
    is gone: the next call starts after that segment. *)
Theorem C08_coalesced_partial : forall m fm f segs last extra rest,
  machine_ok m -> client_frame m fm f -> well_cut fm f (segs ++ [last]) -> (length (last ++ extra) <= N.to_nat 8192)%nat ->
  frame_parse m (map Data segs ++ Data (last ++ extra) :: rest) = (Ok (frame_view f), rest).
Proof. exact parse_coalesced. Qed.
Print Assumptions C08_coalesced_partial.
(** So of several frames sharing one segment only the first is ever seen. *)
Theorem C08_only_first_partial : forall m fm f others rest,
  machine_ok m -> client_frame m fm f ->
  (length (rfc_encode fm f ++ concat (map (fun x => rfc_encode (fst x) (snd x)) others)) <= N.to_nat 8192)%nat ->
  frame_parse m (Data (rfc_encode fm f ++ concat (map (fun x => rfc_encode (fst x) (snd x)) others)) :: rest) =
  (Ok (frame_view f), rest).
Proof.
  intros m fm f others rest Hm Hc Hl.
  apply (parse_coalesced m fm f [] (rfc_encode fm f) _ rest Hm Hc); [|exact Hl].
  apply whole_cut; apply Hc.
Qed.
Print Assumptions C08_only_first_partial.
Example C08_coalesced_example : exists segs last extra,
  client_frame m32 Len7 hello_frame /\ well_cut Len7 hello_frame (segs ++ [last]) /\
  (length (last ++ extra) <= N.to_nat 8192)%nat /\ segs <> [] /\ extra = rfc_encode Len7 hello_frame.
Proof.
  exists [firstn 8 (rfc_encode Len7 hello_frame)], (skipn 8 (rfc_encode Len7 hello_frame)), (rfc_encode Len7 hello_frame).
  split; [apply client_ok; cbn; lia|]. split; [exact example_cut|]. split; [|split; [discriminate|reflexivity]].
  apply Nat.leb_le. vm_compute. reflexivity.
Qed.

(** ** C09 *)
Theorem C09_empty_frame_refuted : exists f cs next,
  rf_payload f = [] /\ client_frame m32 Len7 f /\ client_frame m32 Len7 next /\
  segments cs (rfc_encode Len7 f) /\
  fst (times 2 (frame_parse m32) (map Data cs ++ [Data (rfc_encode Len7 next)])) <>
  [Ok (frame_view f); Ok (frame_view next)] /\
  fst (frame_parse m32 (map Data cs ++ [Data (rfc_encode Len7 next)])) = Ok (frame_view f).
Proof. exact empty_frame_refuted. Qed.
Print Assumptions C09_empty_frame_refuted.
(** Any segmentation not cutting the first two bytes delivers the empty frame, and the next call starts
    exactly after the segment [l] that holds the last byte of its header: the masking key is consumed
    only if it lies in that same segment, together with whatever else is in it. *)
Theorem C09_empty_frame_partial : forall m fm f after before l later rest,
  rfc_wf fm f -> rf_payload f = [] -> segments (before ++ l :: later) (rfc_encode fm f ++ after) ->
  ~ cut_at (before ++ l :: later) 1 ->
  (length (concat before) < head_len fm <= length (concat before) + length l)%nat -> (length l <= N.to_nat 8192)%nat ->
  frame_parse m (map Data (before ++ l :: later) ++ rest) = (Ok (frame_view f), map Data later ++ rest).
Proof.
  intros m fm f after before l later rest (Hrsv & Hop & Hfit & _) He Hs H1 Hp Hl.
  unfold frame_view. rewrite He in *. unfold rfc_encode, rfc_header in Hs. rewrite He, <- app_assoc in Hs.
  exact (parse_empty_exact m fm _ _ _ _ _ before l later rest Hrsv Hop Hfit Hs H1 Hp Hl).
Qed.
Print Assumptions C09_empty_frame_partial.
(** A masked empty frame whose header and key come in different segments: the four key bytes are read
    as the beginning of the next frame. *)
Theorem C09_key_left_over_partial : forall m fm f key rest,
  rfc_wf fm f -> rf_payload f = [] -> rf_key f = Some key ->
  frame_parse m (Data (rfc_header fm f) :: Data key :: rest) = (Ok (frame_view f), Data key :: rest).
Proof.
  intros m fm f key rest Hwf He Hk.
  assert (length (rfc_header fm f) = head_len fm) as Hh.
  { unfold rfc_header, rfc_head. rewrite app_length, form_ext_length. reflexivity. }
  assert (length key = 4%nat) as Hk4 by (destruct Hwf as (_ & _ & _ & K); rewrite Hk in K; exact K).
  assert (2 <= head_len fm <= 10)%nat as Hhl by (unfold head_len; destruct fm; simpl; lia).
  apply (C09_empty_frame_partial m fm f [] [] (rfc_header fm f) [key] rest Hwf He); cbn [app].
  - split; [repeat constructor; [discriminate|destruct key; discriminate]|].
    unfold rfc_encode. rewrite He, Hk. simpl. now rewrite !app_nil_r.
  - intros (c1 & c2 & E & E2). destruct c1 as [|a c1]; [discriminate|]. injection E as <- E.
    cbn [concat] in E2. rewrite app_length in E2. lia.
  - cbn [concat length]. lia.
  - apply Nat.le_trans with 10%nat; [lia|]. apply Nat.leb_le. vm_compute. reflexivity.
Qed.
Print Assumptions C09_key_left_over_partial.
Example C09_example : rfc_wf Len7 empty_ping /\ rf_payload empty_ping = [] /\ rf_key empty_ping = Some key4.
Proof. split; [apply (client_ok true 0 9 []); cbn; lia|split; reflexivity]. Qed.

(** ** C10 *)
Theorem C10_fragments_reassembled : forall m op ps rest,
  machine_ok m -> Forall (piece_ok m) ps -> fragments_of op (map pc_frame ps) -> deliverable op ->
  (N.of_nat (length (payload_of (map pc_frame ps))) <= max_alloc m)%N ->
  (op = 1%N -> is_utf8 (payload_of (map pc_frame ps))) ->
  msg_next m (pieces_stream ps ++ rest) = (Ok (message_for op (payload_of (map pc_frame ps))), rest).
Proof. exact fragments_reassembled. Qed.
Print Assumptions C10_fragments_reassembled.
Example C10_example : Forall (piece_ok m32) three_pieces /\ fragments_of 1 (map pc_frame three_pieces) /\
  payload_of (map pc_frame three_pieces) = bs "hello" /\ length three_pieces = 3.
Proof. exact example_fragments. Qed.

(** ** C11 *)
Theorem C11_text_is_utf8 : forall m s t s',
  machine_ok m -> msg_next m s = (Ok (Text t), s') ->
  is_utf8 t /\ exists f fs, frame_chain m s (f :: fs) s' /\ op_code f = OpText /\ t = concat (map decoded (f :: fs)).
Proof. exact text_is_utf8. Qed.
Print Assumptions C11_text_is_utf8.
Theorem C11_invalid_text_rejected : forall m ps rest,
  machine_ok m -> Forall (piece_ok m) ps -> fragments_of 1 (map pc_frame ps) ->
  (N.of_nat (length (payload_of (map pc_frame ps))) <= max_alloc m)%N ->
  ~ is_utf8 (payload_of (map pc_frame ps)) ->
  msg_next m (pieces_stream ps ++ rest) = (Err ClientProtocolViolation, rest).
Proof. exact invalid_text_rejected. Qed.
Print Assumptions C11_invalid_text_rejected.
Example C11_example : ~ is_utf8 [n2b 195; n2b 40] /\ is_utf8 [n2b 195; n2b 169].
Proof. exact example_utf8. Qed.

(** ** C12 *)
Theorem C12_interleaved_control_refuted : exists f ping l rest,
  Forall (piece_ok m32) [f; ping; l] /\ fragments_of 1 [pc_frame f; pc_frame l] /\
  rf_op (pc_frame ping) = 9%N /\ rf_fin (pc_frame ping) = true /\
  msg_next m32 (pieces_stream [f; ping; l] ++ rest) = (Err ClientProtocolViolation, pieces_stream [l] ++ rest).
Proof. exact interleaved_refuted. Qed.
Print Assumptions C12_interleaved_control_refuted.
(** Control messages between (not inside) messages are delivered in order with them. *)
Theorem C12_interleaved_control_partial : forall m (xs : list (N * list piece)) rest,
  machine_ok m -> Forall (fun x => delivered m (fst x) (snd x)) xs ->
  times (length xs) (msg_next m) (flat_map (fun x => pieces_stream (snd x)) xs ++ rest) =
  (map (fun x => Ok (message_for (fst x) (payload_of (map pc_frame (snd x))))) xs, rest).
Proof. exact times_delivered. Qed.
Print Assumptions C12_interleaved_control_partial.
(** The failure is general: any non-continuation, non-close frame inside a message destroys it. *)
Theorem C12_interleaving_always_fails : forall m f mids c ps rest,
  machine_ok m -> Forall (piece_ok m) ps -> map pc_frame ps = f :: mids ++ [c] ->
  rf_fin f = false -> rf_op f <> 8%N ->
  Forall (fun g => rf_fin g = false /\ rf_op g = 0%N) mids ->
  rf_op c <> 8%N -> rf_op c <> 0%N ->
  (N.of_nat (length (payload_of (f :: mids))) <= max_alloc m)%N ->
  msg_next m (pieces_stream ps ++ rest) = (Err ClientProtocolViolation, rest).
Proof. exact interleaving_always_fails. Qed.
Print Assumptions C12_interleaving_always_fails.

(** ** C13 *)
Theorem C13_close_reported : forall m op f mids cl ps rest,
  machine_ok m -> Forall (piece_ok m) ps ->
  (map pc_frame ps = [cl] \/
   map pc_frame ps = f :: mids ++ [cl] /\ rf_fin f = false /\ rf_op f = op /\
   Forall (fun g => rf_fin g = false /\ rf_op g = 0%N) mids) ->
  rf_op cl = 8%N -> (N.of_nat (length (payload_of (f :: mids))) <= max_alloc m)%N ->
  exists rest', msg_next m (pieces_stream ps ++ rest) = (Err ClientSentCloseFrame, rest') /\
    (op <> 8%N \/ map pc_frame ps = [cl] -> rest' = rest).
Proof. exact msg_next_close. Qed.
Print Assumptions C13_close_reported.
(** Conversely ClientSentCloseFrame is reported only if a close frame was received. *)
Theorem C13_close_only_if_sent : forall m s s',
  machine_ok m -> msg_next m s = (Err ClientSentCloseFrame, s') ->
  exists fs l, frame_chain m s (fs ++ [l]) s' /\ op_code l = OpTerminate.
Proof. exact close_only_if_sent. Qed.
Print Assumptions C13_close_only_if_sent.
Example C13_example : exists p, piece_ok m32 p /\ rf_op (pc_frame p) = 8%N /\
  fst (msg_next m32 (pieces_stream [p])) = Err ClientSentCloseFrame.
Proof. exact example_close. Qed.

(** ** C14 *)
Theorem C14_no_crash_refuted : exists s, length (bytes_of s) = 14 /\
  fst (frame_parse m64 s) = Panic /\ fst (msg_next m64 s) = Panic /\ machine_ok m64.
Proof. exact crash_witness. Qed.
Print Assumptions C14_no_crash_refuted.
Theorem C14_no_crash_partial : forall m s, machine_ok m ->
  fst (frame_parse m s) <> OutOfFuel /\ fst (msg_next m s) <> OutOfFuel /\
  (fst (frame_parse m s) = Panic ->
   exists a b ext tl, bytes_of s = a :: b :: ext ++ tl /\ length ext = ext_len b /\
     (max_alloc m < declared_len b ext)%N) /\
  (fst (msg_next m s) = Panic ->
   (max_alloc m < N.of_nat (length (bytes_of s)))%N \/
   exists pre a b ext tl, bytes_of s = pre ++ a :: b :: ext ++ tl /\ length ext = ext_len b /\
     (max_alloc m < declared_len b ext)%N).
Proof. exact crash_only_if_huge. Qed.
Print Assumptions C14_no_crash_partial.

(** ** C15 *)
Theorem C15_reserved_refuted : exists f, rf_rsv f = 7%N /\ client_frame m32 Len7 f /\
  fst (msg_next m32 [Data (rfc_encode Len7 f)]) = Ok (Text (bs "hello")).
Proof. exact rsv_refuted. Qed.
Print Assumptions C15_reserved_refuted.
(** Opcodes: a delivered message starts with the frame at the head of the stream, whose opcode is
    1, 2, 9 or 10 and determines the message; all further frames have opcode 0. *)
Theorem C15_reserved_partial : forall m s msg s',
  machine_ok m -> msg_next m s = (Ok msg, s') ->
  exists a tl f fs, bytes_of s = a :: tl /\ deliverable (b2n a mod 16) /\ message_op msg = (b2n a mod 16)%N /\
    frame_chain m s (f :: fs) s' /\ Forall (fun g => op_code g = OpContinue) fs.
Proof. exact reserved_opcodes. Qed.
Print Assumptions C15_reserved_partial.

(** ** C16 *)
Theorem C16_closed_stays_closed : forall m w w1 ops w2,
  ws_next m w = (Err ConnectionClosed, w1) -> ws_run m ops w1 = Some w2 ->
  ws_next m w2 = (Err ConnectionClosed, w2).
Proof. exact closed_stays_closed. Qed.
Print Assumptions C16_closed_stays_closed.
(** and if only [next] is called, the socket is not touched at all *)
Theorem C16_closed_is_silent : forall m w w1 n w2,
  ws_next m w = (Err ConnectionClosed, w1) -> ws_run m (repeat ONext n) w1 = Some w2 -> w2 = w1.
Proof. exact closed_is_silent. Qed.
Print Assumptions C16_closed_is_silent.
Example C16_example : exists w w1, ws_next m32 w = (Err ConnectionClosed, w1) /\
  ws_run m32 [ONext; OSend (Text (bs "x")); ONext] w1 <> None.
Proof. exact example_closed. Qed.

(** ** C17 *)
Theorem C17_one_close_frame : forall m s ops w r w',
  machine_ok m -> small_ops ops -> ws_run m ops (ws_new s None) = Some w -> ws_close w = (r, w') ->
  r = Ok tt /\ exists fs, frames_in (ws_out w') = Some fs /\
    length (filter (fun f => N.eqb (rf_op f) 8) fs) = 1.
Proof. exact one_close_frame. Qed.
Print Assumptions C17_one_close_frame.
Example C17_example : exists w w', ws_run m32 [ONext; ONext; ONext] (ws_new close_stream None) = Some w /\
  ws_close w = (Ok tt, w') /\ ws_st w = WsClosed.
Proof. exact example_close_run. Qed.

(** ** C18 *)
Theorem C18_ping_pong : forall m w r w',
  machine_ok m -> ws_budget w = None -> ws_st w = WsOpen -> ws_next m w = (r, w') ->
  (forall p, r = Ok (Ping p) -> exists wire, ws_out w' = ws_out w ++ wire /\
     frames_in wire = Some [RFC true 0 10 None (message_payload (Ping p))]) /\
  (forall msg, r = Ok msg -> (forall p, msg <> Ping p) -> ws_out w' = ws_out w) /\
  (r = Err ClientError -> ws_out w' = ws_out w).
Proof. exact ping_pong. Qed.
Print Assumptions C18_ping_pong.
Example C18_example : exists w', ws_next m32 (ws_new ping_stream None) = (Ok (Ping (Some (bs "hey"))), w') /\
  ws_out w' = [n2b 138; n2b 3] ++ bs "hey".
Proof. exact example_ping. Qed.

(** ** C19 *)
Theorem C19_send_after_close_refuted : exists ops w fs,
  ws_run m32 ops (ws_new close_stream None) = Some w /\ frames_in (ws_out w) = Some fs /\
  map rf_op fs = [8; 1]%N.
Proof. exact send_after_close. Qed.
Print Assumptions C19_send_after_close_refuted.
Theorem C19_send_after_close_partial : forall m s ops w,
  machine_ok m -> small_ops ops -> ws_run_polite m ops (ws_new s None) = Some w ->
  exists fs, Forall (fun f => rf_op f <> 8%N) fs /\
    frames_in (ws_out w) = Some (match ws_st w with WsOpen => fs | WsClosed => fs ++ [RFC true 0 8 None []] end).
Proof. exact polite_close_last. Qed.
Print Assumptions C19_send_after_close_partial.

(** ** C20 *)
Theorem C20_eof_refuted : forall m n, exists w,
  ws_run m (repeat ONext n) (ws_new [] None) = Some w /\ fst (ws_next m w) = Err ClientError.
Proof. exact eof_never_closed. Qed.
Print Assumptions C20_eof_refuted.
(** A peer that does send a close frame after any number of messages is reported as closed. *)
Theorem C20_eof_partial : forall m (xs : list (N * list piece)) cl rest,
  machine_ok m -> Forall (fun x => delivered m (fst x) (snd x)) xs ->
  piece_ok m cl -> rf_op (pc_frame cl) = 8%N ->
  exists w w', ws_run m (repeat ONext (length xs))
      (ws_new (flat_map (fun x => pieces_stream (snd x)) xs ++ pieces_stream [cl] ++ rest) None) = Some w /\
    ws_next m w = (Err ConnectionClosed, w').
Proof. exact close_eventually. Qed.
Print Assumptions C20_eof_partial.

(** ** C21 *)
Theorem C21_failed_write_prefix : forall f budget,
  exists wire, send_frame f None = (wire, Ok tt) /\
  (length wire <= budget -> send_frame f (Some budget) = (wire, Ok tt)) /\
  (budget < length wire -> send_frame f (Some budget) = (firstn budget wire, Err SendIoError)).
Proof. exact failed_write_prefix. Qed.
Print Assumptions C21_failed_write_prefix.
(** A whole series of sends over a connection that takes [n] bytes and then fails for good: the peer gets the first [n]
    bytes of the series, nothing twice and nothing else, and a send reports success exactly if all of it got out. *)
Definition send_each (msgs : list message) (w : websocket) : websocket := fold_left (fun w m => snd (ws_send m w)) msgs w.
Definition encodings (msgs : list message) : str := flat_map (fun m => fst (send_message m None)) msgs.
Lemma send_each_budget msgs : forall w n, ws_budget w = Some n ->
  ws_out (send_each msgs w) = ws_out w ++ firstn n (encodings msgs) /\ ws_budget (send_each msgs w) = Some (n - length (encodings msgs)).
Proof.
  induction msgs as [|msg msgs IH]; intros w n Hn; cbn [send_each fold_left encodings flat_map].
  - rewrite firstn_nil, app_nil_r. cbn [length]. now rewrite Nat.sub_0_r.
  - destruct (C21_failed_write_prefix (frame_of_message msg) n) as (wire & Hw & Hok & Hno).
    change (send_message msg None) with (send_frame (frame_of_message msg) None). rewrite Hw. cbn [fst].
    assert (exists w1, snd (ws_send msg w) = w1 /\ ws_out w1 = ws_out w ++ firstn n wire /\ ws_budget w1 = Some (n - length wire)) as (w1 & -> & H1 & H2).
    { unfold ws_send, ws_write. rewrite Hn. destruct (Nat.le_gt_cases (length wire) n) as [Hl|Hl].
      - rewrite (Hok Hl). eexists. split; [reflexivity|]. cbn [ws_out ws_budget]. now rewrite firstn_all2 by exact Hl.
      - rewrite (Hno Hl). eexists. split; [reflexivity|]. cbn [ws_out ws_budget]. split; [reflexivity|]. rewrite firstn_length. now replace (n - Nat.min n (length wire)) with (n - length wire) by lia. }
    destruct (IH w1 _ H2) as [H3 H4]. fold (send_each msgs w1). fold (encodings msgs). rewrite H3, H4, H1, firstn_app, <- app_assoc, app_length. split; [reflexivity|now rewrite Nat.sub_add_distr].
Qed.
Theorem C21_series_prefix : forall s n msgs msg,
  let w := send_each msgs (ws_new s (Some n)) in
  ws_out w = firstn n (encodings msgs) /\
  (fst (ws_send msg w) = Ok tt <-> length (encodings (msgs ++ [msg])) <= n) /\
  (fst (ws_send msg w) = Ok tt \/ fst (ws_send msg w) = Err SendIoError).
Proof.
  intros s n msgs msg w. destruct (send_each_budget msgs (ws_new s (Some n)) n eq_refl) as [H1 H2]. fold w in H1, H2. cbn [ws_out ws_new app] in H1. split; [exact H1|].
  destruct (C21_failed_write_prefix (frame_of_message msg) (n - length (encodings msgs))) as (wire & Hw & Hok & Hno).
  unfold ws_send, ws_write. rewrite H2. assert (encodings (msgs ++ [msg]) = encodings msgs ++ fst (send_message msg None)) as -> by (unfold encodings; rewrite flat_map_app; cbn [flat_map]; now rewrite app_nil_r).
  rewrite app_length.
  change (send_message msg None) with (send_frame (frame_of_message msg) None). rewrite Hw. cbn [fst].
  assert (2 <= length wire) as Hlong by (rewrite send_frame_none in Hw; injection Hw as <-; unfold frame_wire, frame_format; cbn [concat app length]; lia).
  destruct (Nat.le_gt_cases (length wire) (n - length (encodings msgs))) as [Hl|Hl].
  - rewrite (Hok Hl). cbn [fst]. split; [|now left]. split; [|reflexivity]. intros _. lia.
  - rewrite (Hno Hl). cbn [fst]. split; [|now right]. split; [discriminate|]. lia.
Qed.
Print Assumptions C21_series_prefix.
Example C21_example : send_frame (frame_of_message (Text (bs "hello"))) (Some 4) =
  ([n2b 129; n2b 5] ++ bs "he", Err SendIoError).
Proof. reflexivity. Qed.
