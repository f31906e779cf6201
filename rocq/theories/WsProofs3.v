(** Sending frames and the WebSocket state machine. *)
From Verif Require Import Base Io IoProofs Utf8 WsModel WsSpec WsBridge WsProofs WsProofs2.
Ltac Zify.zify_post_hook ::= Z.div_mod_to_equations.

(** The RFC decoder inverts the RFC encoder (sanity of the specification). *)
Lemma rfc_roundtrip fm f rest : rfc_wf fm f -> rfc_decode (rfc_encode fm f ++ rest) = Some (f, rest).
Proof.
  intros (Hr & Ho & Hfit & Hk). set (n := N.of_nat (length (rf_payload f))) in *.
  unfold rfc_encode, rfc_header, rfc_head. fold n. cbn [app].
  set (a := n2b (flag (rf_fin f) 128 + rf_rsv f * 16 + rf_op f)).
  set (b := n2b (flag (is_masked f) 128 + form_field fm n)).
  assert (b2n a = flag (rf_fin f) 128 + rf_rsv f * 16 + rf_op f)%N as Ha.
  { unfold a. rewrite b2n_n2b. apply N.mod_small. unfold flag. destruct (rf_fin f); lia. }
  pose proof (form_field_lt fm n Hfit) as Hff.
  assert (b2n b = flag (is_masked f) 128 + form_field fm n)%N as Hb.
  { unfold b. rewrite b2n_n2b. apply N.mod_small. unfold flag. destruct (is_masked f); lia. }
  unfold rfc_decode.
  assert ((128 <=? b2n a)%N = rf_fin f) as -> by (rewrite Ha; unfold flag; destruct (rf_fin f); lia).
  assert ((b2n a / 16) mod 8 = rf_rsv f)%N as -> by (rewrite Ha; unfold flag; destruct (rf_fin f); lia).
  assert (b2n a mod 16 = rf_op f)%N as -> by (rewrite Ha; unfold flag; destruct (rf_fin f); lia).
  assert ((128 <=? b2n b)%N = is_masked f) as -> by (rewrite Hb; unfold flag; destruct (is_masked f); lia).
  assert (b2n b mod 128 = form_field fm n)%N as -> by (rewrite Hb; unfold flag; destruct (is_masked f); lia).
  assert ((if (form_field fm n =? 126)%N then 2 else if (form_field fm n =? 127)%N then 8 else 0) = form_len fm) as ->.
  { destruct fm; simpl; try reflexivity. simpl in Hfit.
    assert ((n =? 126)%N = false) as -> by lia. assert ((n =? 127)%N = false) as -> by lia. reflexivity. }
  rewrite <- app_assoc. set (body := match rf_key f with Some k => k ++ xor_key k (rf_payload f) | None => rf_payload f end).
  assert ((length (form_ext fm n ++ body ++ rest) <? form_len fm) = false) as ->.
  { apply Nat.ltb_ge. rewrite app_length, form_ext_length. lia. }
  assert (firstn (form_len fm) (form_ext fm n ++ body ++ rest) = form_ext fm n) as ->.
  { rewrite <- (form_ext_length fm n). rewrite firstn_app, Nat.sub_diag, firstn_all. simpl. now rewrite app_nil_r. }
  assert (skipn (form_len fm) (form_ext fm n ++ body ++ rest) = body ++ rest) as ->.
  { rewrite <- (form_ext_length fm n). rewrite skipn_app, Nat.sub_diag, skipn_all. reflexivity. }
  assert ((if (form_field fm n <? 126)%N then form_field fm n else net_value (form_ext fm n)) = n) as ->.
  { destruct fm; cbn [form_field form_ext]; simpl in Hfit.
    - assert ((n <? 126)%N = true) as -> by lia. reflexivity.
    - rewrite net_value_bytes. change (126 <? 126)%N with false. cbn iota.
      apply N.mod_small. cbn. lia.
    - rewrite net_value_bytes. change (127 <? 126)%N with false. cbn iota.
      apply N.mod_small. cbn. lia. }
  assert (n < 2 ^ 63)%N as Hn63 by (destruct fm; simpl in Hfit; lia).
  assert ((2 ^ 63 <=? n)%N = false) as -> by lia. cbn [orb].
  unfold is_masked in *. unfold body. destruct f as [ff rr oo kk pp]; cbn [rf_fin rf_rsv rf_op rf_key rf_payload] in *.
  destruct kk as [k|].
  - rewrite <- app_assoc.
    assert ((length (k ++ xor_key k pp ++ rest) <? 4) = false) as ->.
    { apply Nat.ltb_ge. rewrite app_length. lia. }
    assert (firstn 4 (k ++ xor_key k pp ++ rest) = k) as ->.
    { rewrite <- Hk. rewrite firstn_app, Nat.sub_diag, firstn_all. simpl. now rewrite app_nil_r. }
    assert (skipn 4 (k ++ xor_key k pp ++ rest) = xor_key k pp ++ rest) as ->.
    { rewrite <- Hk. rewrite skipn_app, Nat.sub_diag, skipn_all. reflexivity. }
    assert ((N.of_nat (length (xor_key k pp ++ rest)) <? n)%N = false) as ->.
    { rewrite app_length, xor_key_length. unfold n. lia. }
    unfold n. rewrite Nat2N.id. rewrite <- (xor_key_length k pp) at 1 2.
    rewrite firstn_app, Nat.sub_diag, firstn_all, skipn_app, Nat.sub_diag, skipn_all. simpl.
    now rewrite app_nil_r, xor_key_twice.
  - cbn [Nat.ltb Nat.leb firstn skipn].
    assert ((N.of_nat (length (pp ++ rest)) <? n)%N = false) as ->.
    { rewrite app_length. unfold n. lia. }
    unfold n. rewrite Nat2N.id.
    rewrite firstn_app, Nat.sub_diag, firstn_all, skipn_app, Nat.sub_diag, skipn_all. simpl.
    now rewrite app_nil_r.
Qed.

(** The bytes puck writes for a frame. *)
Definition frame_wire (f : frame) : str := concat (frame_format f) ++ decoded f.
Definition flags_num (f : frame) : N := (flag (rsv1 f) 4 + flag (rsv2 f) 2 + flag (rsv3 f) 1)%N.
(** The RFC frame a [Frame] stands for when sent. *)
Definition sent_frame (f : frame) : rfc_frame :=
  RFC (fin f) (flags_num f) (code (op_code f)) None (decoded f).
Definition puck_form (n : N) : len_form :=
  if (n <? 126)%N then Len7 else if (n <? 65535)%N then Len16 else Len64.

Lemma frame_wire_encode f :
  frame_wire f = rfc_encode (puck_form (N.of_nat (length (decoded f)))) (sent_frame f).
Proof.
  unfold frame_wire, frame_format, rfc_encode, rfc_header, rfc_head, sent_frame, puck_form, is_masked.
  cbn [rf_fin rf_rsv rf_op rf_key rf_payload]. set (n := N.of_nat (length (decoded f))).
  match goal with |- concat ([n2b ?x; _] :: _) ++ _ = ([n2b ?y; _] ++ _) ++ _ => assert (x = y) as -> end.
  { unfold flags_num. destruct f as [f0 f1 f2 f3 fo fd]. cbn [fin rsv1 rsv2 rsv3 op_code].
    destruct f0, f1, f2, f3, fo; reflexivity. }
  unfold format_length. cbn [flag].
  destruct (N.ltb_spec n 126) as [H1|H1].
  - assert ((126 <=? n)%N = false) as -> by lia. cbn [andb concat form_field form_ext app]. reflexivity.
  - assert ((126 <=? n)%N = true) as -> by lia. cbn [andb].
    destruct (N.ltb_spec n 65535) as [H2|H2]; cbn [concat form_field form_ext]; rewrite write_be_bytes, app_nil_r; reflexivity.
Qed.

Definition frame_small (f : frame) : Prop := (N.of_nat (length (decoded f)) < 2 ^ 63)%N.

Lemma sent_wf f : frame_small f -> rfc_wf (puck_form (N.of_nat (length (decoded f)))) (sent_frame f).
Proof.
  intros H. unfold frame_small in H. unfold rfc_wf, sent_frame. cbn [rf_rsv rf_op rf_key rf_payload]. repeat split.
  - unfold flags_num, flag. destruct (rsv1 f), (rsv2 f), (rsv3 f); lia.
  - destruct (op_code f); reflexivity.
  - unfold puck_form. destruct (N.ltb_spec (N.of_nat (length (decoded f))) 126); [exact H0|].
    destruct (N.ltb_spec (N.of_nat (length (decoded f))) 65535); simpl; lia.
Qed.

Lemma frame_wire_decode f rest : frame_small f -> rfc_decode (frame_wire f ++ rest) = Some (sent_frame f, rest).
Proof. intros H. rewrite frame_wire_encode. apply rfc_roundtrip. now apply sent_wf. Qed.

Lemma send_frame_none f : send_frame f None = (frame_wire f, Ok tt).
Proof.
  unfold send_frame. rewrite write_calls_none. unfold frame_wire. rewrite concat_app. cbn [concat].
  now rewrite app_nil_r.
Qed.
Lemma send_frame_some f n : send_frame f (Some n) =
  (firstn n (frame_wire f), if Nat.leb (length (frame_wire f)) n then Ok tt else Err SendIoError).
Proof.
  unfold send_frame. rewrite write_calls_some. unfold frame_wire. rewrite concat_app. cbn [concat].
  now rewrite app_nil_r.
Qed.

(* ------------------------------------------------------------------ *)
(** ** Decoding a whole output stream *)

Lemma rfc_decode_shrinks s f s' : rfc_decode s = Some (f, s') -> length s' + 2 <= length s.
Proof.
  unfold rfc_decode. destruct s as [|a [|b s1]]; try discriminate.
  set (ext := if (_ =? 126)%N then _ else _). destruct (length s1 <? ext); [discriminate|].
  set (kl := if (128 <=? b2n b)%N then _ else _). destruct (length (skipn ext s1) <? kl); [discriminate|].
  match goal with |- (if ?c then _ else _) = _ -> _ => destruct c; [discriminate|] end.
  intros [= _ <-]. cbn [length]. rewrite !skipn_length. lia.
Qed.

Lemma rfc_decode_app s f s' t : rfc_decode s = Some (f, s') -> rfc_decode (s ++ t) = Some (f, s' ++ t).
Proof.
  unfold rfc_decode. destruct s as [|a [|b s1]]; try discriminate. cbn [app].
  set (ext := if (_ =? 126)%N then _ else _).
  destruct (Nat.ltb_spec (length s1) ext) as [|H1]; [discriminate|].
  rewrite app_length. destruct (Nat.ltb_spec (length s1 + length t) ext) as [H1'|H1']; [lia|].
  rewrite firstn_app_le, skipn_app_le by lia.
  set (kl := if (128 <=? b2n b)%N then _ else _).
  rewrite app_length.
  destruct (Nat.ltb_spec (length (skipn ext s1)) kl) as [|H2]; [discriminate|].
  destruct (Nat.ltb_spec (length (skipn ext s1) + length t) kl) as [H2'|H2']; [lia|].
  rewrite firstn_app_le, skipn_app_le by lia.
  set (s3 := skipn kl (skipn ext s1)). set (len := if (_ <? 126)%N then _ else _).
  destruct (2 ^ 63 <=? len)%N; [discriminate|]. cbn [orb]. rewrite app_length.
  destruct (N.ltb_spec (N.of_nat (length s3)) len) as [|H3]; [discriminate|].
  destruct (N.ltb_spec (N.of_nat (length s3 + length t)) len) as [H3'|H3']; [lia|].
  rewrite firstn_app_le, skipn_app_le by lia. now intros [= <- <-].
Qed.

Lemma decode_all_fuel fuel fuel2 s fs :
  rfc_decode_all fuel s = Some fs -> fuel <= fuel2 -> rfc_decode_all fuel2 s = Some fs.
Proof.
  revert fuel2 s fs. induction fuel as [|fuel IH]; intros fuel2 s fs H Hl.
  - destruct s; [|discriminate]. destruct fuel2; exact H.
  - destruct s as [|x s]; [destruct fuel2; exact H|]. destruct fuel2 as [|fuel2]; [lia|].
    cbn [rfc_decode_all] in *. destruct (rfc_decode (x :: s)) as [[f s']|]; [|discriminate].
    destruct (rfc_decode_all fuel s') as [fs'|] eqn:E; [|discriminate].
    rewrite (IH fuel2 s' fs' E) by lia. exact H.
Qed.

Lemma decode_all_app fuel s fs t fs2 fuel2 :
  rfc_decode_all fuel s = Some fs -> rfc_decode_all fuel2 t = Some fs2 ->
  rfc_decode_all (fuel + fuel2) (s ++ t) = Some (fs ++ fs2).
Proof.
  revert s fs. induction fuel as [|fuel IH]; intros s fs H1 H2.
  - destruct s; [|discriminate]. injection H1 as <-. exact H2.
  - destruct s as [|x s].
    { injection H1 as <-. cbn [app]. eapply decode_all_fuel; [exact H2|lia]. }
    cbn [rfc_decode_all] in H1. destruct (rfc_decode (x :: s)) as [[f s']|] eqn:E; [|discriminate].
    destruct (rfc_decode_all fuel s') as [fs'|] eqn:E2; [|discriminate]. injection H1 as <-.
    cbn [Nat.add rfc_decode_all app]. change (x :: s ++ t) with ((x :: s) ++ t).
    rewrite (rfc_decode_app _ _ _ t E). rewrite (IH s' fs' E2 H2). reflexivity.
Qed.

Lemma frames_in_app s fs t fs2 :
  frames_in s = Some fs -> frames_in t = Some fs2 -> frames_in (s ++ t) = Some (fs ++ fs2).
Proof. unfold frames_in. intros H1 H2. rewrite app_length. now apply decode_all_app. Qed.

Lemma frames_in_wire f : frame_small f -> frames_in (frame_wire f) = Some [sent_frame f].
Proof.
  intros H. pose proof (frame_wire_decode f [] H) as D. rewrite app_nil_r in D.
  pose proof (rfc_decode_shrinks _ _ _ D) as L. unfold frames_in.
  destruct (frame_wire f) as [|x w]; [discriminate|]. cbn [length rfc_decode_all].
  rewrite D. destruct (length w); reflexivity.
Qed.

(* ------------------------------------------------------------------ *)
(** ** Sent messages *)

Lemma frame_of_message_wire msg :
  sent_frame (frame_of_message msg) = RFC true 0 (message_op msg) None (message_payload msg) /\
  decoded (frame_of_message msg) = message_payload msg.
Proof. destruct msg as [[p|]|[p|]|s|b]; split; reflexivity. Qed.

(* ------------------------------------------------------------------ *)
(** ** The state machine *)

Lemma build_message_for op d : deliverable op -> (op = 1%N -> valid_utf8 d = true) ->
  build_message (opcode_named op) d = Ok (message_for op d).
Proof.
  intros [->|[->|[->| ->]]] Hu; cbn; try reflexivity. now rewrite (Hu eq_refl).
Qed.

Lemma build_message_inv op d msg : build_message op d = Ok msg ->
  (op = OpBinary /\ msg = Binary d) \/ (op = OpText /\ msg = Text d /\ valid_utf8 d = true) \/
  (op = OpPing /\ msg = Ping (optional d)) \/ (op = OpPong /\ msg = Pong (optional d)).
Proof.
  unfold build_message, optional. destruct op; try discriminate.
  - intros [= <-]. auto.
  - destruct (valid_utf8 d) eqn:E; [|discriminate]. intros [= <-]. auto 6.
  - intros [= <-]. auto 6.
  - intros [= <-]. auto 6.
Qed.

Lemma ws_closed_next m w : ws_st w = WsClosed -> ws_next m w = (Err ConnectionClosed, w).
Proof. intros H. unfold ws_next. now rewrite H. Qed.

Lemma ws_write_none f w : ws_budget w = None ->
  ws_write f w = (Ok tt, WS (ws_st w) (ws_in w) (ws_out w ++ frame_wire f) None).
Proof. intros H. unfold ws_write. rewrite H, send_frame_none. reflexivity. Qed.

Lemma ws_write_st f w : ws_st (snd (ws_write f w)) = ws_st w /\ ws_in (snd (ws_write f w)) = ws_in w.
Proof. unfold ws_write. destruct (send_frame f (ws_budget w)). split; reflexivity. Qed.

Lemma ws_write_result f w : fst (ws_write f w) = Ok tt \/ fst (ws_write f w) = Err SendIoError.
Proof.
  unfold ws_write. destruct (ws_budget w) as [n|].
  - rewrite send_frame_some. cbn [fst]. destruct (Nat.leb _ _); auto.
  - rewrite send_frame_none. auto.
Qed.

Lemma ws_next_closes m w w' : ws_next m w = (Err ConnectionClosed, w') -> ws_st w' = WsClosed.
Proof.
  unfold ws_next. destruct (ws_st w) eqn:Est; [|intros [= <-]; exact Est].
  destruct (msg_next m (ws_in w)) as [[msg|e| |] s']; try discriminate.
  - destruct msg; try discriminate.
    match goal with |- (match ?x with (_, _) => _ end) = _ -> _ => destruct x as [[u|e| |] w2]; discriminate end.
  - destruct e; [discriminate|]. unfold send_close.
    pose proof (ws_write_st close_frame (WS WsClosed s' (ws_out w) (ws_budget w))) as [H _].
    destruct (ws_write close_frame (WS WsClosed s' (ws_out w) (ws_budget w))) as [[u|e| |] w2]; try discriminate.
    intros [= <-]. exact H.
Qed.

Lemma ws_step_closed m o w w' : ws_st w = WsClosed -> ws_step m o w = Some w' -> ws_st w' = WsClosed.
Proof.
  intros Hc. destruct o as [|msg]; cbn [ws_step].
  - rewrite ws_closed_next by exact Hc. intros [= <-]. exact Hc.
  - unfold ws_send. pose proof (ws_write_st (frame_of_message msg) w) as [H _].
    destruct (ws_write (frame_of_message msg) w) as [[u|e| |] w2]; try discriminate;
      intros [= <-]; cbn [snd] in H; congruence.
Qed.

Lemma ws_run_closed m ops w w' : ws_st w = WsClosed -> ws_run m ops w = Some w' -> ws_st w' = WsClosed.
Proof.
  revert w. induction ops as [|o ops IH]; intros w Hc; cbn [ws_run]; [intros [= <-]; exact Hc|].
  destruct (ws_step m o w) as [w1|] eqn:E; [|discriminate]. apply IH. eapply ws_step_closed; eauto.
Qed.

(** What one step adds to the output (reliable transport). *)
Lemma machine_small m n : machine_ok m -> (n <= max_alloc m)%N -> (n < 2 ^ 63)%N.
Proof.
  intros (Hw & Ha & _) Hn. eapply N.le_lt_trans; [exact Hn|]. eapply N.lt_le_trans; [exact Ha|].
  apply N.pow_le_mono_r; lia.
Qed.

Lemma ws_next_none m w r w' : machine_ok m -> ws_budget w = None -> ws_st w = WsOpen ->
  ws_next m w = (r, w') -> r <> Panic ->
  ws_budget w' = None /\ r <> OutOfFuel /\
  (exists s' r', msg_next m (ws_in w) = (r', s') /\ ws_in w' = s' /\
   match r with
   | Ok (Ping p) => r' = Ok (Ping p) /\ ws_st w' = WsOpen /\
       (N.of_nat (length (message_payload (Ping p))) < 2 ^ 63)%N /\
       ws_out w' = ws_out w ++ frame_wire (frame_of_message (Pong p))
   | Ok msg => r' = Ok msg /\ ws_st w' = WsOpen /\ ws_out w' = ws_out w
   | Err ClientError => r' = Err ClientProtocolViolation /\ ws_st w' = WsOpen /\ ws_out w' = ws_out w
   | Err ConnectionClosed => r' = Err ClientSentCloseFrame /\ ws_st w' = WsClosed /\
       ws_out w' = ws_out w ++ frame_wire close_frame
   | _ => False
   end).
Proof.
  intros Hm Hb Hst. unfold ws_next. rewrite Hst.
  destruct (msg_next m (ws_in w)) as [rm s'] eqn:E.
  destruct (msg_next_any m _ _ _ Hm E) as (Hno & _ & Hok & _ & _).
  destruct rm as [msg|e| |]; [| | |congruence].
  - destruct msg as [p|p|d|d].
    + rewrite ws_write_none by (cbn; exact Hb). cbn [ws_st ws_in ws_out ws_budget].
      intros [= <- <-] _. cbn [ws_st ws_in ws_out ws_budget]. split; [reflexivity|]. split; [discriminate|].
      exists s', (Ok (Ping p)). repeat split; auto.
      destruct (Hok _ eq_refl) as (_ & f & fs & _ & _ & Hbm & Hfit).
        apply build_message_inv in Hbm as [[_ H]|[(_ & H & _)|[[_ H]|[_ H]]]]; try discriminate.
        injection H as ->. unfold payload_fits in Hfit. eapply N.le_lt_trans; [|apply (machine_small m _ Hm Hfit)].
        unfold optional. cbn [map concat]. destruct (decoded f ++ concat (map decoded fs)); cbn [message_payload]; lia.
    + intros [= <- <-] _. cbn. repeat split; auto; try discriminate. exists s', (Ok (Pong p)). auto.
    + intros [= <- <-] _. cbn. repeat split; auto; try discriminate. exists s', (Ok (Text d)). auto.
    + intros [= <- <-] _. cbn. repeat split; auto; try discriminate. exists s', (Ok (Binary d)). auto.
  - destruct e.
    + intros [= <- <-] _. cbn. repeat split; auto; try discriminate. exists s', (Err ClientProtocolViolation). auto.
    + unfold send_close. rewrite ws_write_none by (cbn; exact Hb). cbn [ws_st ws_in ws_out ws_budget].
      intros [= <- <-] _. cbn. repeat split; auto; try discriminate. exists s', (Err ClientSentCloseFrame). auto.
  - intros [= <- <-] H. congruence.
Qed.

Definition is_close (f : rfc_frame) : bool := N.eqb (rf_op f) 8.

(** Invariant: the output decodes into frames without masks, with a close frame iff closed. *)
Definition ws_inv (w : websocket) : Prop :=
  ws_budget w = None /\ exists fs, frames_in (ws_out w) = Some fs /\
    length (filter is_close fs) = match ws_st w with WsOpen => 0 | WsClosed => 1 end.

Lemma sent_close_frame : sent_frame close_frame = RFC true 0 8 None [].
Proof. reflexivity. Qed.
Lemma close_small : frame_small close_frame.
Proof. unfold frame_small. cbn. lia. Qed.

Lemma message_small msg : (N.of_nat (length (message_payload msg)) < 2 ^ 63)%N -> frame_small (frame_of_message msg).
Proof. unfold frame_small. destruct (frame_of_message_wire msg) as [_ ->]. auto. Qed.

Lemma frames_in_message msg : (N.of_nat (length (message_payload msg)) < 2 ^ 63)%N ->
  frames_in (frame_wire (frame_of_message msg)) = Some [RFC true 0 (message_op msg) None (message_payload msg)].
Proof.
  intros H. rewrite frames_in_wire by now apply message_small. now destruct (frame_of_message_wire msg) as [-> _].
Qed.

Lemma message_not_close msg d : is_close (RFC true 0 (message_op msg) None d) = false.
Proof. destruct msg; reflexivity. Qed.

Lemma ws_step_inv m o w w' : machine_ok m -> small_ops [o] -> ws_inv w -> ws_step m o w = Some w' -> ws_inv w'.
Proof.
  intros Hm Hs [Hb (fs & Hf & Hc)]. destruct o as [|msg]; cbn [ws_step].
  - destruct (ws_st w) eqn:Est; rewrite ?Est in Hc.
    2: { rewrite ws_closed_next by exact Est. intros [= <-]. split; [exact Hb|]. exists fs. now rewrite Est. }
    destruct (ws_next m w) as [r w1] eqn:E. intros Hr.
    assert (r <> Panic /\ w1 = w') as [Hp ->] by (destruct r; [injection Hr as ->|injection Hr as ->| |]; split; congruence).
    destruct (ws_next_none m w r w' Hm Hb Est E Hp) as (Hb' & Hno & s' & r' & _ & _ & Hcase).
    split; [exact Hb'|].
    destruct r as [[p|p|d|d]|[|]| |]; try contradiction.
    + destruct Hcase as (_ & Hst & Hlen & Hout). rewrite Hout, Hst.
      exists (fs ++ [RFC true 0 10 None (message_payload (Pong p))]). split.
      * apply frames_in_app; [exact Hf|]. rewrite frames_in_message by (destruct p; exact Hlen). reflexivity.
      * rewrite filter_app, app_length, Hc. reflexivity.
    + destruct Hcase as (_ & Hst & Hout). rewrite Hout, Hst. exists fs. auto.
    + destruct Hcase as (_ & Hst & Hout). rewrite Hout, Hst. exists fs. auto.
    + destruct Hcase as (_ & Hst & Hout). rewrite Hout, Hst. exists fs. auto.
    + destruct Hcase as (_ & Hst & Hout). rewrite Hout, Hst. exists fs. auto.
    + destruct Hcase as (_ & Hst & Hout). rewrite Hout, Hst. exists (fs ++ [RFC true 0 8 None []]). split.
      * apply frames_in_app; [exact Hf|]. rewrite frames_in_wire by apply close_small. reflexivity.
      * rewrite filter_app, app_length, Hc. reflexivity.
  - inversion Hs as [|? ? Hl _]; subst. cbn in Hl.
    unfold ws_send. rewrite ws_write_none by exact Hb. intros [= <-]. split; [reflexivity|].
    cbn [ws_out ws_st]. exists (fs ++ [RFC true 0 (message_op msg) None (message_payload msg)]). split.
    + apply frames_in_app; [exact Hf|]. now apply frames_in_message.
    + rewrite filter_app, app_length. cbn [filter]. rewrite message_not_close. cbn. lia.
Qed.

Lemma ws_run_inv m ops w w' : machine_ok m -> small_ops ops -> ws_inv w -> ws_run m ops w = Some w' -> ws_inv w'.
Proof.
  intros Hm. revert w. induction ops as [|o ops IH]; intros w Hs Hi; cbn [ws_run]; [intros [= <-]; exact Hi|].
  inversion Hs as [|? ? Ho Hs']; subst. destruct (ws_step m o w) as [w1|] eqn:E; [|discriminate].
  apply IH; auto. eapply ws_step_inv; eauto. constructor; auto.
Qed.

Lemma ws_new_inv s : ws_inv (ws_new s None).
Proof. split; [reflexivity|]. exists []. split; reflexivity. Qed.

Lemma ws_close_inv w r w' : ws_inv w -> ws_close w = (r, w') ->
  r = Ok tt /\ exists fs, frames_in (ws_out w') = Some fs /\ length (filter is_close fs) = 1.
Proof.
  intros [Hb (fs & Hf & Hc)]. unfold ws_close. destruct (ws_st w) eqn:Est; rewrite ?Est in Hc.
  - unfold send_close. rewrite ws_write_none by exact Hb. intros [= <- <-]. split; [reflexivity|].
    cbn [ws_out]. exists (fs ++ [RFC true 0 8 None []]). split.
    + apply frames_in_app; [exact Hf|]. rewrite frames_in_wire by apply close_small. reflexivity.
    + rewrite filter_app, app_length, Hc. reflexivity.
  - intros [= <- <-]. split; [reflexivity|]. exists fs. auto.
Qed.

(** A program that does not send after the end: the close frame is the last frame. *)
Definition ws_inv2 (w : websocket) : Prop :=
  ws_budget w = None /\ exists fs, Forall (fun f => is_close f = false) fs /\
    frames_in (ws_out w) = Some (match ws_st w with WsOpen => fs | WsClosed => fs ++ [RFC true 0 8 None []] end).

Lemma ws_polite_inv m ops w w' : machine_ok m -> small_ops ops -> ws_inv2 w -> ws_run_polite m ops w = Some w' -> ws_inv2 w'.
Proof.
  intros Hm. revert w. induction ops as [|o ops IH]; intros w Hs Hi; cbn [ws_run_polite]; [intros [= <-]; exact Hi|].
  inversion Hs as [|? ? Ho Hs']; subst.
  assert (forall w1, ws_step m o w = Some w1 -> (ws_st w = WsClosed -> o = ONext) -> ws_inv2 w1) as K.
  { intros w1 E Hpol. destruct Hi as [Hb (fs & Hall & Hf)]. destruct (ws_st w) eqn:Est; rewrite ?Est in Hf.
    - destruct o as [|msg]; cbn [ws_step] in E.
      + destruct (ws_next m w) as [r w2] eqn:En.
        assert (r <> Panic /\ w2 = w1) as [Hp ->] by (destruct r; [injection E as ->|injection E as ->| |]; split; congruence).
        destruct (ws_next_none m w r w1 Hm Hb Est En Hp) as (Hb' & Hno & s' & r' & _ & _ & Hcase).
        split; [exact Hb'|].
        destruct r as [[p|p|d|d]|[|]| |]; try contradiction.
        * destruct Hcase as (_ & Hst & Hlen & Hout). rewrite Hout, Hst.
          exists (fs ++ [RFC true 0 10 None (message_payload (Pong p))]). split.
          -- apply Forall_app. split; [exact Hall|]. constructor; [reflexivity|constructor].
          -- apply frames_in_app; [exact Hf|]. rewrite frames_in_message by (destruct p; exact Hlen). reflexivity.
        * destruct Hcase as (_ & Hst & Hout). rewrite Hout, Hst. exists fs. auto.
        * destruct Hcase as (_ & Hst & Hout). rewrite Hout, Hst. exists fs. auto.
        * destruct Hcase as (_ & Hst & Hout). rewrite Hout, Hst. exists fs. auto.
        * destruct Hcase as (_ & Hst & Hout). rewrite Hout, Hst. exists fs. auto.
        * destruct Hcase as (_ & Hst & Hout). rewrite Hout, Hst. exists fs. split; [exact Hall|].
          apply frames_in_app; [exact Hf|]. rewrite frames_in_wire by apply close_small. reflexivity.
      + unfold ws_send in E. rewrite ws_write_none in E by exact Hb. injection E as <-. split; [reflexivity|].
        cbn [ws_out ws_st]. rewrite Est. exists (fs ++ [RFC true 0 (message_op msg) None (message_payload msg)]). split.
        * apply Forall_app. split; [exact Hall|]. constructor; [apply message_not_close|constructor].
        * apply frames_in_app; [exact Hf|]. now apply frames_in_message.
    - rewrite (Hpol eq_refl) in E. cbn [ws_step] in E. rewrite ws_closed_next in E by exact Est. injection E as <-.
      split; [exact Hb|]. exists fs. rewrite Est. auto. }
  destruct o as [|msg].
  - destruct (ws_step m ONext w) as [w1|]; [|destruct (ws_st w); discriminate].
    intros H. apply (IH w1); auto.
  - destruct (ws_st w) eqn:Est; [|discriminate]. destruct (ws_step m (OSend msg) w) as [w1|]; [|discriminate].
    apply IH; auto. apply K; auto. discriminate.
Qed.

Lemma ws_new_inv2 s : ws_inv2 (ws_new s None).
Proof. split; [reflexivity|]. exists []. split; [constructor|reflexivity]. Qed.

(** End of file is a client error, again and again. *)
Lemma frame_parse_eof m : frame_parse m [] = (Err InsufficientData, []).
Proof. unfold frame_parse. rewrite br_read_eof. reflexivity. Qed.
Lemma ws_next_eof m b o : ws_next m (WS WsOpen [] o b) = (Err ClientError, WS WsOpen [] o b).
Proof. unfold ws_next, msg_next. cbn [ws_st ws_in]. rewrite frame_parse_eof. reflexivity. Qed.

(** Sequences of delivered messages. *)
Definition delivered (m : machine) (op : N) (ps : list piece) : Prop :=
  Forall (piece_ok m) ps /\ fragments_of op (map pc_frame ps) /\ deliverable op /\
  payload_fits m (payload_of (map pc_frame ps)) /\ (op = 1%N -> is_utf8 (payload_of (map pc_frame ps))).
Definition msg_of_pieces (x : N * list piece) : message := message_for (fst x) (payload_of (map pc_frame (snd x))).

Lemma msg_next_delivered m op ps rest : machine_ok m -> delivered m op ps ->
  msg_next m (pieces_stream ps ++ rest) = (Ok (msg_of_pieces (op, ps)), rest).
Proof.
  intros Hm (H1 & H2 & H3 & H4 & H5).
  rewrite (msg_next_pieces m op (map pc_frame ps) ps rest Hm H1 eq_refl H2); auto.
  - rewrite build_message_for; auto. intros E. apply valid_utf8_iff. auto.
  - destruct H3 as [->|[->|[->| ->]]]; discriminate.
Qed.

Lemma times_delivered m (xs : list (N * list piece)) rest : machine_ok m ->
  Forall (fun x => delivered m (fst x) (snd x)) xs ->
  times (length xs) (msg_next m) (flat_map (fun x => pieces_stream (snd x)) xs ++ rest) =
  (map (fun x => Ok (msg_of_pieces x)) xs, rest).
Proof.
  intros Hm. induction 1 as [|[op ps] xs Hx Hxs IH]; [reflexivity|].
  cbn [length times flat_map fst snd map] in *. rewrite <- app_assoc.
  rewrite (msg_next_delivered m op ps _ Hm Hx). rewrite IH. reflexivity.
Qed.
