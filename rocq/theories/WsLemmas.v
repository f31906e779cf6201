(** The exact statements used in PropWs.v, and the concrete witnesses and examples. *)
From Verif Require Import Base Io IoProofs Utf8 WsModel WsSpec WsBridge WsProofs WsProofs2 WsProofs3.
Ltac Zify.zify_post_hook ::= Z.div_mod_to_equations.

Definition m32 : machine := Machine 32 (2 ^ 31 - 1) (fun _ => 32).
Definition m64 : machine := Machine 64 (2 ^ 63 - 1) (fun _ => 32).
Lemma m32_ok : machine_ok m32.
Proof. unfold machine_ok, m32; cbn. repeat split; lia. Qed.
Lemma m64_ok : machine_ok m64.
Proof. unfold machine_ok, m64; cbn. repeat split; lia. Qed.

Definition key4 : str := [n2b 1; n2b 2; n2b 3; n2b 250].
Definition client (fin : bool) (rsv op : N) (d : str) : rfc_frame := RFC fin rsv op (Some key4) d.
Definition hello_frame : rfc_frame := client true 0 1 (bs "hello").
Definition whole (f : rfc_frame) : piece := Piece Len7 f [rfc_encode Len7 f].

Lemma client_ok fin rsv op d : (rsv < 8)%N -> (op < 16)%N -> length d < 126 -> client_frame m32 Len7 (client fin rsv op d).
Proof.
  intros H1 H2 H3. unfold client_frame, rfc_wf, client. cbn [rf_rsv rf_op rf_key rf_payload form_fits is_masked].
  repeat split; auto; cbn; lia.
Qed.

Lemma whole_cut fm f : is_masked f = true -> rfc_wf fm f -> well_cut fm f [rfc_encode fm f].
Proof.
  intros Hmask Hwf. split.
  - split; [|cbn; now rewrite app_nil_r]. constructor; [|constructor].
    unfold rfc_encode, rfc_header, rfc_head. discriminate.
  - destruct (rf_payload f) as [|x p] eqn:Hp; [reflexivity|].
    assert (length (rfc_encode fm f) = head_len fm + 4 + S (length p)) as Hl.
    { unfold is_masked in Hmask. destruct Hwf as (_ & _ & _ & Hk).
      destruct (rf_key f) as [k|] eqn:Ek; [|discriminate].
      rewrite (rfc_encode_masked fm f k Ek). unfold rfc_head, head_len. rewrite !app_length, form_ext_length, xor_key_length, Hp, Hk.
      cbn [length]. lia. }
    assert (forall q, cut_at [rfc_encode fm f] q -> q = 0 \/ q = length (rfc_encode fm f)) as Hc.
    { intros q (c1 & c2 & E & <-). destruct c1 as [|y [|z c1]]; [now left| |injection E as _ E; destruct c1; discriminate].
      injection E as <- _. right. cbn [concat]. now rewrite app_nil_r. }
    unfold head_len in *. split.
    + intros H. apply Hc in H. lia.
    + intros i Hi H. apply Hc in H. lia.
Qed.

Lemma whole_ok fin rsv op d : (rsv < 8)%N -> (op < 16)%N -> length d < 126 -> piece_ok m32 (whole (client fin rsv op d)).
Proof.
  intros H1 H2 H3. pose proof (client_ok fin rsv op d H1 H2 H3) as Hc. split; [exact Hc|].
  apply whole_cut; [reflexivity|apply Hc].
Qed.

Lemma sent_message_decodes msg rest :
  (N.of_nat (length (message_payload msg)) < 2 ^ 63)%N ->
  exists wire, send_message msg None = (wire, Ok tt) /\
    rfc_decode (wire ++ rest) = Some (RFC true 0 (message_op msg) None (message_payload msg), rest).
Proof.
  intros H. exists (frame_wire (frame_of_message msg)). unfold send_message. rewrite send_frame_none. split; [reflexivity|].
  rewrite frame_wire_decode by now apply message_small. now destruct (frame_of_message_wire msg) as [-> _].
Qed.

Lemma sent_wire msg : fst (send_message msg None) =
  rfc_encode (puck_form (N.of_nat (length (message_payload msg)))) (RFC true 0 (message_op msg) None (message_payload msg)).
Proof.
  unfold send_message. rewrite send_frame_none. cbn [fst]. rewrite frame_wire_encode.
  destruct (frame_of_message_wire msg) as [-> ->]. reflexivity.
Qed.

Lemma minimal_length_refuted : exists msg,
  minimal_form (N.of_nat (length (message_payload msg))) = Len16 /\
  fst (send_message msg None) = rfc_encode Len64 (RFC true 0 (message_op msg) None (message_payload msg)).
Proof.
  exists (Binary (repeat x61 (N.to_nat 65535))). rewrite sent_wire. cbn [message_payload].
  rewrite repeat_length, N2Nat.id. split; reflexivity.
Qed.

Lemma minimal_length_elsewhere msg :
  N.of_nat (length (message_payload msg)) <> 65535%N ->
  fst (send_message msg None) =
  rfc_encode (minimal_form (N.of_nat (length (message_payload msg))))
             (RFC true 0 (message_op msg) None (message_payload msg)).
Proof.
  intros H. rewrite sent_wire. f_equal. unfold puck_form, minimal_form.
  destruct (N.ltb_spec (N.of_nat (length (message_payload msg))) 126); [reflexivity|].
  destruct (N.ltb_spec (N.of_nat (length (message_payload msg))) 65535);
  destruct (N.ltb_spec (N.of_nat (length (message_payload msg))) (2 ^ 16)); auto; exfalso; lia.
Qed.

Lemma parse_single m fm f rest :
  machine_ok m -> client_frame m fm f ->
  frame_parse m (Data (rfc_encode fm f) :: rest) = (Ok (frame_view f), rest).
Proof.
  intros Hm Hc. apply (parse_well_cut m fm f [rfc_encode fm f] rest Hm Hc).
  apply whole_cut; apply Hc.
Qed.

Lemma example_cut : well_cut Len7 hello_frame [firstn 8 (rfc_encode Len7 hello_frame); skipn 8 (rfc_encode Len7 hello_frame)].
Proof.
  split; [split; [repeat constructor; discriminate|reflexivity]|]. cbn [rf_payload hello_frame client].
  change (bs "hello") with ([x68; x65; x6c; x6c; x6f]). cbn iota.
  assert (forall q, cut_at [firstn 8 (rfc_encode Len7 hello_frame); skipn 8 (rfc_encode Len7 hello_frame)] q -> q = 0 \/ q = 8 \/ q = 11) as Hc.
  { intros q (c1 & c2 & E & <-). destruct c1 as [|y [|z [|w c1]]]; [now left| | |].
    - injection E as <- _. right. left. reflexivity.
    - injection E as <- <- _. right. right. reflexivity.
    - injection E as _ _ E. destruct c1; discriminate. }
  unfold head_len. cbn [form_len]. split.
  - intros H. apply Hc in H. lia.
  - intros i Hi H. apply Hc in H. lia.
Qed.

Lemma segmentation_refuted : exists f cs1 cs2,
  client_frame m32 Len7 f /\ segments cs1 (rfc_encode Len7 f) /\ segments cs2 (rfc_encode Len7 f) /\
  fst (frame_parse m32 (map Data cs1)) = Ok (frame_view f) /\
  fst (frame_parse m32 (map Data cs2)) = Err InsufficientData.
Proof.
  exists hello_frame, [rfc_encode Len7 hello_frame],
    [firstn 4 (rfc_encode Len7 hello_frame); skipn 4 (rfc_encode Len7 hello_frame)].
  repeat split; try (repeat constructor; discriminate); try (vm_compute; reflexivity); cbn; lia.
Qed.

Lemma bytes_header_unique (a b : byte) (ext tail : str) (a' b' : byte) (ext' tail' : str) :
  a :: b :: ext ++ tail = a' :: b' :: ext' ++ tail' -> length ext = ext_len b -> length ext' = ext_len b' ->
  a = a' /\ b = b' /\ ext = ext' /\ tail = tail'.
Proof.
  intros H H1 H2. injection H as <- <- H. apply app_same_length in H as [-> ->]; [auto|congruence].
Qed.

Lemma unmasked_never_ok m s a b ext tail f s' :
  machine_ok m -> bytes_of s = a :: b :: ext ++ tail -> length ext = ext_len b ->
  mask_bit b = false -> (0 < declared_len b ext)%N ->
  frame_parse m s <> (Ok f, s').
Proof.
  intros Hm Hb He Hmask Hpos E. destruct (frame_parse_any m s _ _ Hm E) as (_ & _ & Hok & _).
  destruct (Hok f eq_refl) as (_ & a' & b' & ext' & key & enc & lost & Hb' & He' & _ & _ & _ & _ & _ & _ & _ & Hk & _).
  rewrite Hb in Hb'. destruct (bytes_header_unique _ _ _ _ _ _ _ _ Hb' He He') as (-> & -> & -> & _).
  destruct Hk as [[H0 _]|(_ & Hm1 & _)]; [lia|congruence].
Qed.

Lemma example_unmasked : segments [[n2b 129; n2b 5]; bs "hello"] (rfc_head Len7 true 0 1 false 5 ++ bs "hello") /\
  ~ cut_at [[n2b 129; n2b 5]; bs "hello"] 1.
Proof.
  split; [split; [repeat constructor; discriminate|reflexivity]|].
  intros (c1 & c2 & E & H). destruct c1 as [|y [|z c1]]; [discriminate| |].
  - injection E as <- _. discriminate.
  - injection E as <- <- _. discriminate.
Qed.

Lemma truncated_exact m fm fin rsv op n key enc cs :
  machine_ok m -> (rsv < 8)%N -> (op < 16)%N -> form_fits fm n -> (n <= max_alloc m)%N -> length key = 4 ->
  (N.of_nat (length enc) < n)%N ->
  segments cs (rfc_head fm fin rsv op true n ++ key ++ enc) ->
  ~ cut_at cs 1 -> (forall i, 0 < i < 4 -> ~ cut_at cs (head_len fm + i)) ->
  exists s', frame_parse m (map Data cs) =
    (Err (if fin then PfIoError else WaitForNextFrame (n - N.of_nat (length enc))), s').
Proof. intros. eapply parse_truncated; eauto. Qed.

(** Reading the header back from the bytes of a frame. *)
Lemma encode_bytes fm f : rfc_wf fm f ->
  exists a b ext tl, rfc_encode fm f = a :: b :: ext ++ tl /\ length ext = ext_len b /\
    declared_len b ext = N.of_nat (length (rf_payload f)) /\
    length tl = (if is_masked f then 4 else 0) + length (rf_payload f).
Proof.
  intros (Hr & Ho & Hfit & Hk). set (n := N.of_nat (length (rf_payload f))) in *.
  pose proof (form_field_lt fm n Hfit) as Hff.
  exists (n2b (flag (rf_fin f) 128 + rf_rsv f * 16 + rf_op f)), (n2b (flag (is_masked f) 128 + form_field fm n)),
    (form_ext fm n), (match rf_key f with Some k => k ++ xor_key k (rf_payload f) | None => rf_payload f end).
  set (b := n2b (flag (is_masked f) 128 + form_field fm n)).
  assert (b2n b mod 128 = form_field fm n)%N as Hb.
  { unfold b. rewrite b2n_n2b, (N.mod_small _ 256) by (unfold flag; destruct (is_masked f); lia).
    unfold flag; destruct (is_masked f); lia. }
  repeat split.
  - rewrite form_ext_length. unfold ext_len. rewrite Hb. destruct fm; cbn [form_field form_len]; try reflexivity.
    simpl in Hfit. assert ((n =? 126)%N = false) as -> by lia. assert ((n =? 127)%N = false) as -> by lia. reflexivity.
  - unfold declared_len. rewrite Hb. destruct fm; cbn [form_field form_ext]; simpl in Hfit.
    + assert ((n <? 126)%N = true) as -> by lia. reflexivity.
    + rewrite net_value_bytes. change (126 <? 126)%N with false. cbn iota. apply N.mod_small. cbn. lia.
    + rewrite net_value_bytes. change (127 <? 126)%N with false. cbn iota. apply N.mod_small. cbn. lia.
  - unfold is_masked. destruct (rf_key f); [|reflexivity]. rewrite app_length, xor_key_length. lia.
Qed.

Lemma truncated_never_ok m fm f s missing :
  machine_ok m -> client_frame m fm f -> rf_payload f <> [] ->
  missing <> [] -> bytes_of s ++ missing = rfc_encode fm f ->
  exists e s', frame_parse m s = (Err e, s').
Proof.
  intros Hm (Hwf & Hmask & Hlen) Hne Hmiss Hb.
  destruct (encode_bytes fm f Hwf) as (a & b & ext & tl & He & Hel & Hd & Htl). rewrite Hmask in Htl.
  destruct (frame_parse m s) as [r s'] eqn:E.
  destruct (frame_parse_any m s r s' Hm E) as (Hno & _ & Hok & Hpanic).
  destruct r as [fr|e| |]; [| |exfalso|congruence].
  - exfalso.
    destruct (Hok fr eq_refl) as (_ & a' & b' & ext' & key & enc & lost & Hb' & He' & _ & _ & _ & _ & _ & _ & Hl & Hk & _).
    rewrite Hb', He in Hb. cbn [app] in Hb. rewrite <- !app_assoc in Hb.
    destruct (bytes_header_unique _ _ _ _ _ _ _ _ Hb He' Hel) as (-> & -> & -> & Ht).
    rewrite Hd in *. rewrite (N.mod_small) in Hl.
    2: { destruct Hm as (Hw & Ha & _). eapply N.le_lt_trans; [exact Hlen|]. eapply N.lt_le_trans; [exact Ha|].
         apply N.pow_le_mono_r; lia. }
    destruct Hk as [[H0 _]|(_ & _ & Hk4)].
    { destruct (rf_payload f); [congruence|]. cbn in H0. lia. }
    apply (f_equal (@length _)) in Ht. rewrite !app_length in Ht.
    assert (0 < length missing) by (destruct missing; [congruence|simpl; lia]). lia.
  - now exists e, s'.
  - destruct (Hpanic eq_refl) as (a' & b' & ext' & tl' & Hb' & He' & Hbig).
    rewrite Hb', He in Hb. cbn [app] in Hb. rewrite <- app_assoc in Hb.
    destruct (bytes_header_unique _ _ _ _ _ _ _ _ Hb He' Hel) as (-> & -> & -> & Ht). lia.
Qed.

Lemma example_truncated : exists s missing, missing <> [] /\ bytes_of s ++ missing = rfc_encode Len7 hello_frame /\
  client_frame m32 Len7 hello_frame.
Proof.
  exists [Data (firstn 9 (rfc_encode Len7 hello_frame))], (skipn 9 (rfc_encode Len7 hello_frame)).
  split; [discriminate|]. split; [reflexivity|]. apply client_ok; cbn; lia.
Qed.

(** 127, then 2^32+5 as 64 bits, then a key and five bytes. *)
Definition truncating_stream : stream :=
  [Data ([n2b 129; n2b 255] ++ net_bytes 8 (2 ^ 32 + 5) ++ key4 ++ bs "hello")].
Lemma declared_length_refuted : exists s f s' a b ext tl,
  machine_ok m32 /\ frame_parse m32 s = (Ok f, s') /\ bytes_of s = a :: b :: ext ++ tl /\ length ext = ext_len b /\
  N.of_nat (length (decoded f)) <> declared_len b ext.
Proof.
  exists truncating_stream, (Frame true false false false OpText (xor_key key4 (bs "hello"))), [],
    (n2b 129), (n2b 255), (net_bytes 8 (2 ^ 32 + 5)), (key4 ++ bs "hello").
  split; [exact m32_ok|]. split; [vm_compute; reflexivity|]. split; [reflexivity|]. split; [reflexivity|].
  vm_compute. discriminate.
Qed.

Lemma declared_len_64 b ext : length ext = ext_len b -> (declared_len b ext < 2 ^ 64)%N.
Proof.
  intros H. unfold declared_len, ext_len in *. pose proof (net_value_lt ext) as L. rewrite H in L.
  destruct (N.ltb_spec (b2n b mod 128) 126); [lia|].
  destruct (N.eqb_spec (b2n b mod 128) 126); [cbn in L; lia|].
  destruct (N.eqb_spec (b2n b mod 128) 127); [cbn in L; lia|]. lia.
Qed.

Lemma declared_length m s f s' :
  machine_ok m -> frame_parse m s = (Ok f, s') ->
  exists a b ext tl, bytes_of s = a :: b :: ext ++ tl /\ length ext = ext_len b /\
    N.of_nat (length (decoded f)) = (declared_len b ext mod 2 ^ ptr_width m)%N /\
    (ptr_width m = 64%N \/ (declared_len b ext < 2 ^ ptr_width m)%N ->
     N.of_nat (length (decoded f)) = declared_len b ext).
Proof.
  intros Hm E. destruct (frame_parse_any m s _ _ Hm E) as (_ & _ & Hok & _).
  destruct (Hok f eq_refl) as (_ & a & b & ext & key & enc & lost & Hb & He & _ & _ & _ & _ & _ & Hd & Hl & _ & _).
  exists a, b, ext, (key ++ enc ++ lost ++ bytes_of s'). rewrite Hd, xor_key_length.
  split; [exact Hb|]. split; [exact He|]. split; [exact Hl|].
  intros H. rewrite Hl. apply N.mod_small. destruct H as [->|H]; [|exact H].
  now apply declared_len_64.
Qed.

Lemma coalesced_refuted : exists f cs,
  client_frame m32 Len7 f /\ segments cs (rfc_encode Len7 f ++ rfc_encode Len7 f) /\
  fst (times 2 (frame_parse m32) (map Data cs)) = [Ok (frame_view f); Err InsufficientData].
Proof.
  exists hello_frame, [rfc_encode Len7 hello_frame ++ rfc_encode Len7 hello_frame].
  split; [apply client_ok; cbn; lia|]. split; [|vm_compute; reflexivity].
  split; [repeat constructor; discriminate|reflexivity].
Qed.

Lemma frames_in_order m ps rest :
  machine_ok m -> Forall (piece_ok m) ps ->
  times (length ps) (frame_parse m) (pieces_stream ps ++ rest) =
  (map (fun p => Ok (frame_view (pc_frame p))) ps, rest).
Proof.
  intros Hm. induction 1 as [|p ps Hp Hps IH]; [reflexivity|].
  cbn [length times map]. rewrite (parse_piece m p ps rest Hm Hp), IH. reflexivity.
Qed.

Definition empty_ping : rfc_frame := client true 0 9 [].
Lemma empty_frame_refuted : exists f cs next,
  rf_payload f = [] /\ client_frame m32 Len7 f /\ client_frame m32 Len7 next /\
  segments cs (rfc_encode Len7 f) /\
  fst (times 2 (frame_parse m32) (map Data cs ++ [Data (rfc_encode Len7 next)])) <>
  [Ok (frame_view f); Ok (frame_view next)] /\
  fst (frame_parse m32 (map Data cs ++ [Data (rfc_encode Len7 next)])) = Ok (frame_view f).
Proof.
  exists empty_ping, [firstn 2 (rfc_encode Len7 empty_ping); skipn 2 (rfc_encode Len7 empty_ping)], hello_frame.
  split; [reflexivity|]. split; [apply client_ok; cbn; lia|]. split; [apply client_ok; cbn; lia|].
  split; [split; [repeat constructor; discriminate|reflexivity]|]. split; [vm_compute; discriminate|vm_compute; reflexivity].
Qed.

Lemma fragments_reassembled m op ps rest :
  machine_ok m -> Forall (piece_ok m) ps -> fragments_of op (map pc_frame ps) -> deliverable op ->
  (N.of_nat (length (payload_of (map pc_frame ps))) <= max_alloc m)%N ->
  (op = 1%N -> is_utf8 (payload_of (map pc_frame ps))) ->
  msg_next m (pieces_stream ps ++ rest) = (Ok (message_for op (payload_of (map pc_frame ps))), rest).
Proof. intros. apply (msg_next_delivered m op ps rest); auto. repeat split; auto. Qed.

Definition three_pieces : list piece :=
  [whole (client false 0 1 (bs "he")); whole (client false 0 0 []); whole (client true 0 0 (bs "llo"))].
Lemma example_fragments : Forall (piece_ok m32) three_pieces /\ fragments_of 1 (map pc_frame three_pieces) /\
  payload_of (map pc_frame three_pieces) = bs "hello" /\ length three_pieces = 3.
Proof.
  split; [|split; [|split; reflexivity]].
  - repeat (constructor; [apply whole_ok; cbn; lia|]). constructor.
  - right. exists (client false 0 1 (bs "he")), [client false 0 0 []], (client true 0 0 (bs "llo")).
    repeat split; auto.
Qed.

Lemma text_is_utf8 m s t s' :
  machine_ok m -> msg_next m s = (Ok (Text t), s') ->
  is_utf8 t /\ exists f fs, frame_chain m s (f :: fs) s' /\ op_code f = OpText /\ t = concat (map decoded (f :: fs)).
Proof.
  intros Hm E. destruct (msg_next_any m _ _ _ Hm E) as (_ & _ & Hok & _).
  destruct (Hok _ eq_refl) as (_ & f & fs & Hc & _ & Hb & _).
  apply build_message_inv in Hb as [[_ H]|[(Ho & H & Hu)|[[_ H]|[_ H]]]]; try discriminate.
  injection H as ->. split; [now apply valid_utf8_iff|]. exists f, fs. auto.
Qed.

Lemma invalid_text_rejected m ps rest :
  machine_ok m -> Forall (piece_ok m) ps -> fragments_of 1 (map pc_frame ps) ->
  (N.of_nat (length (payload_of (map pc_frame ps))) <= max_alloc m)%N ->
  ~ is_utf8 (payload_of (map pc_frame ps)) ->
  msg_next m (pieces_stream ps ++ rest) = (Err ClientProtocolViolation, rest).
Proof.
  intros Hm Hps Hfr Hfit Hu. rewrite (msg_next_pieces m 1 (map pc_frame ps) ps rest); auto; [|discriminate].
  cbn [opcode_named build_message]. destruct (valid_utf8 _) eqn:E; [|reflexivity].
  apply valid_utf8_iff in E. contradiction.
Qed.

Lemma example_utf8 : ~ is_utf8 [n2b 195; n2b 40] /\ is_utf8 [n2b 195; n2b 169].
Proof.
  split; [|apply valid_utf8_iff; reflexivity]. intros H. apply valid_utf8_iff in H. discriminate.
Qed.

Lemma interleaved_refuted : exists f ping l rest,
  Forall (piece_ok m32) [f; ping; l] /\ fragments_of 1 [pc_frame f; pc_frame l] /\
  rf_op (pc_frame ping) = 9%N /\ rf_fin (pc_frame ping) = true /\
  msg_next m32 (pieces_stream [f; ping; l] ++ rest) = (Err ClientProtocolViolation, pieces_stream [l] ++ rest).
Proof.
  exists (whole (client false 0 1 (bs "he"))), (whole (client true 0 9 (bs "p"))), (whole (client true 0 0 (bs "llo"))), [].
  split; [repeat (constructor; [apply whole_ok; cbn; lia|]); constructor|].
  split; [|split; [reflexivity|split; [reflexivity|vm_compute; reflexivity]]].
  right. exists (client false 0 1 (bs "he")), [], (client true 0 0 (bs "llo")). repeat split; auto.
Qed.

Lemma opcode_named_continue c : (c < 16)%N -> c <> 0%N -> opcode_named c <> OpContinue.
Proof.
  intros L H. assert (c = 1 \/ c = 2 \/ c = 3 \/ c = 4 \/ c = 5 \/ c = 6 \/ c = 7 \/ c = 8 \/ c = 9 \/
      c = 10 \/ c = 11 \/ c = 12 \/ c = 13 \/ c = 14 \/ c = 15)%N as E by lia.
  repeat (destruct E as [->|E]; [discriminate|]). subst. discriminate.
Qed.

Lemma interleaving_always_fails m f mids c ps rest :
  machine_ok m -> Forall (piece_ok m) ps -> map pc_frame ps = f :: mids ++ [c] ->
  rf_fin f = false -> rf_op f <> 8%N ->
  Forall (fun g => rf_fin g = false /\ rf_op g = 0%N) mids ->
  rf_op c <> 8%N -> rf_op c <> 0%N ->
  (N.of_nat (length (payload_of (f :: mids))) <= max_alloc m)%N ->
  msg_next m (pieces_stream ps ++ rest) = (Err ClientProtocolViolation, rest).
Proof.
  intros Hm Hps Hmap Hfin Hop Hmids Hc8 Hc0 Hfit.
  assert (rf_op c < 16)%N as Hc16.
  { assert (In c (map pc_frame ps)) as Hin by (rewrite Hmap; right; apply in_or_app; right; now left).
    apply in_map_iff in Hin as (p & <- & Hin). rewrite Forall_forall in Hps.
    destruct (Hps p Hin) as [((_ & H & _) & _) _]. exact H. }
  destruct ps as [|p ps]; [discriminate|]. injection Hmap as Hf Hmap. inversion Hps as [|? ? Hp Hps']; subst.
  unfold msg_next. rewrite (parse_piece m p ps rest Hm Hp). unfold frame_view. cbn [op_code fin decoded]. rewrite Hfin.
  pose proof (pieces_size m ps rest Hps') as Hsz.
  assert (forall o, msg_loop m (S (stream_size (pieces_stream ps ++ rest))) o (rf_payload (pc_frame p)) (pieces_stream ps ++ rest) =
    (Err ClientProtocolViolation, rest)) as K.
  { intros o. eapply msg_loop_interleaved; eauto; [now apply opcode_named_not_terminate|now apply opcode_named_continue]. }
  pose proof (opcode_named_not_terminate _ Hop). destruct (opcode_named (rf_op (pc_frame p))); try (apply K). congruence.
Qed.

Lemma close_only_if_sent m s s' :
  machine_ok m -> msg_next m s = (Err ClientSentCloseFrame, s') ->
  exists fs l, frame_chain m s (fs ++ [l]) s' /\ op_code l = OpTerminate.
Proof.
  intros Hm E. destruct (msg_next_any m _ _ _ Hm E) as (_ & _ & _ & H & _). now apply H.
Qed.

Lemma example_close : exists p, piece_ok m32 p /\ rf_op (pc_frame p) = 8%N /\
  fst (msg_next m32 (pieces_stream [p])) = Err ClientSentCloseFrame.
Proof.
  exists (whole (client true 0 8 [n2b 3; n2b 232])). split; [apply whole_ok; cbn; lia|]. split; [reflexivity|vm_compute; reflexivity].
Qed.

Lemma crash_witness : exists s, length (bytes_of s) = 14 /\
  fst (frame_parse m64 s) = Panic /\ fst (msg_next m64 s) = Panic /\ machine_ok m64.
Proof.
  exists [Data ([n2b 130; n2b 255] ++ net_bytes 8 (2 ^ 63) ++ key4)].
  split; [reflexivity|]. split; [vm_compute; reflexivity|]. split; [vm_compute; reflexivity|]. exact m64_ok.
Qed.

Lemma crash_only_if_huge m s : machine_ok m ->
  fst (frame_parse m s) <> OutOfFuel /\ fst (msg_next m s) <> OutOfFuel /\
  (fst (frame_parse m s) = Panic ->
   exists a b ext tl, bytes_of s = a :: b :: ext ++ tl /\ length ext = ext_len b /\
     (max_alloc m < declared_len b ext)%N) /\
  (fst (msg_next m s) = Panic ->
   (max_alloc m < N.of_nat (length (bytes_of s)))%N \/
   exists pre a b ext tl, bytes_of s = pre ++ a :: b :: ext ++ tl /\ length ext = ext_len b /\
     (max_alloc m < declared_len b ext)%N).
Proof.
  intros Hm. destruct (frame_parse m s) as [r s1] eqn:E1. destruct (msg_next m s) as [r2 s2] eqn:E2. cbn [fst].
  destruct (frame_parse_any m s r s1 Hm E1) as (H1 & _ & _ & H2).
  destruct (msg_next_any m s r2 s2 Hm E2) as (H3 & _ & _ & _ & H4).
  repeat split; auto. intros Hp. destruct (H4 Hp) as (fs & s3 & Hc & Hd).
  destruct (chain_bytes m s fs s3 Hm Hc) as (pre & Hb & Hl).
  destruct Hd as [(s4 & Hpanic)|Hbig].
  - right. destruct (frame_parse_any m s3 _ _ Hm Hpanic) as (_ & _ & _ & H5).
    destruct (H5 eq_refl) as (a & b & ext & tl & Hb3 & Hx). exists pre, a, b, ext, tl. now rewrite Hb, Hb3.
  - left. rewrite Hb, app_length. lia.
Qed.

Lemma rsv_refuted : exists f, rf_rsv f = 7%N /\ client_frame m32 Len7 f /\
  fst (msg_next m32 [Data (rfc_encode Len7 f)]) = Ok (Text (bs "hello")).
Proof.
  exists (client true 7 1 (bs "hello")). split; [reflexivity|]. split; [apply client_ok; cbn; lia|vm_compute; reflexivity].
Qed.

Lemma reserved_opcodes m s msg s' :
  machine_ok m -> msg_next m s = (Ok msg, s') ->
  exists a tl f fs, bytes_of s = a :: tl /\ deliverable (b2n a mod 16) /\ message_op msg = (b2n a mod 16)%N /\
    frame_chain m s (f :: fs) s' /\ Forall (fun g => op_code g = OpContinue) fs.
Proof.
  intros Hm E. destruct (msg_next_any m _ _ _ Hm E) as (_ & _ & Hok & _).
  destruct (Hok _ eq_refl) as (_ & f & fs & Hc & Hmf & Hb & _).
  inversion Hc as [|? ? s1 ? ? Hp Hc']; subst.
  destruct (frame_parse_any m s _ _ Hm Hp) as (_ & _ & Hok1 & _).
  destruct (Hok1 f eq_refl) as (_ & a & b & ext & key & enc & lost & Hby & _ & _ & _ & _ & _ & Hop & _).
  exists a, (b :: ext ++ key ++ enc ++ lost ++ bytes_of s1), f, fs.
  assert (b2n a mod 16 < 16)%N as L by lia.
  assert (forall n, (n < 16)%N -> (opcode_named n = OpBinary -> n = 2) /\ (opcode_named n = OpText -> n = 1) /\
    (opcode_named n = OpPing -> n = 9) /\ (opcode_named n = OpPong -> n = 10))%N as Inv.
  { clear. intros n H. assert (n = 0 \/ n = 1 \/ n = 2 \/ n = 3 \/ n = 4 \/ n = 5 \/ n = 6 \/ n = 7 \/ n = 8 \/ n = 9 \/
    n = 10 \/ n = 11 \/ n = 12 \/ n = 13 \/ n = 14 \/ n = 15)%N as E by lia.
    repeat (destruct E as [->|E]; [repeat split; first [discriminate|reflexivity]|]). subst. repeat split; first [discriminate|reflexivity]. }
  destruct (Inv _ L) as (I1 & I2 & I3 & I4). rewrite <- Hop in *.
  split; [exact Hby|].
  assert (deliverable (b2n a mod 16) /\ message_op msg = (b2n a mod 16)%N) as [D1 D2].
  { unfold deliverable. apply build_message_inv in Hb as [[Ho ->]|[(Ho & -> & _)|[[Ho ->]|[Ho ->]]]]; cbn [message_op].
    - rewrite (I1 Ho). auto.
    - rewrite (I2 Ho). auto.
    - rewrite (I3 Ho). auto.
    - rewrite (I4 Ho). auto. }
  repeat split; auto.
  destruct Hmf as (f0 & mids & [= -> ->] & [[-> _]|(_ & ms & l & -> & _ & Hlo & Hms)]); [constructor|].
  apply Forall_app. split; [|constructor; auto]. eapply Forall_impl; [|exact Hms]. now intros g [_ Hg].
Qed.

Lemma closed_stays_closed m w w1 ops w2 :
  ws_next m w = (Err ConnectionClosed, w1) -> ws_run m ops w1 = Some w2 ->
  ws_next m w2 = (Err ConnectionClosed, w2).
Proof.
  intros H1 H2. apply ws_closed_next. eapply ws_run_closed; [|exact H2]. eapply ws_next_closes; exact H1.
Qed.

Lemma closed_is_silent m w w1 n w2 :
  ws_next m w = (Err ConnectionClosed, w1) -> ws_run m (repeat ONext n) w1 = Some w2 -> w2 = w1.
Proof.
  intros H1. pose proof (ws_next_closes m w w1 H1) as Hc. clear H1.
  induction n as [|n IH]; cbn [repeat ws_run]; [now intros [= <-]|].
  cbn [ws_step]. rewrite ws_closed_next by exact Hc. exact IH.
Qed.

Definition close_stream : stream := [Data (rfc_encode Len7 (client true 0 8 []))].
Definition ping_stream : stream := [Data (rfc_encode Len7 (client true 0 9 (bs "hey")))].

Lemma example_closed : exists w w1, ws_next m32 w = (Err ConnectionClosed, w1) /\
  ws_run m32 [ONext; OSend (Text (bs "x")); ONext] w1 <> None.
Proof.
  exists (ws_new close_stream None). eexists. split; [vm_compute; reflexivity|]. vm_compute. discriminate.
Qed.

Lemma one_close_frame m s ops w r w' :
  machine_ok m -> small_ops ops -> ws_run m ops (ws_new s None) = Some w -> ws_close w = (r, w') ->
  r = Ok tt /\ exists fs, frames_in (ws_out w') = Some fs /\
    length (filter (fun f => N.eqb (rf_op f) 8) fs) = 1.
Proof.
  intros Hm Hs Hr Hc. apply (ws_close_inv w r w'); [|exact Hc].
  eapply ws_run_inv; eauto. apply ws_new_inv.
Qed.

Lemma example_close_run : exists w w', ws_run m32 [ONext; ONext; ONext] (ws_new close_stream None) = Some w /\
  ws_close w = (Ok tt, w') /\ ws_st w = WsClosed.
Proof. eexists. eexists. split; [vm_compute; reflexivity|]. split; vm_compute; reflexivity. Qed.

Lemma ping_pong m w r w' :
  machine_ok m -> ws_budget w = None -> ws_st w = WsOpen -> ws_next m w = (r, w') ->
  (forall p, r = Ok (Ping p) -> exists wire, ws_out w' = ws_out w ++ wire /\
     frames_in wire = Some [RFC true 0 10 None (message_payload (Ping p))]) /\
  (forall msg, r = Ok msg -> (forall p, msg <> Ping p) -> ws_out w' = ws_out w) /\
  (r = Err ClientError -> ws_out w' = ws_out w).
Proof.
  intros Hm Hb Hst E. repeat split.
  - intros p ->. destruct (ws_next_none m w _ w' Hm Hb Hst E) as (_ & _ & s' & r' & _ & _ & _ & _ & Hlen & Hout); [discriminate|].
    exists (frame_wire (frame_of_message (Pong p))). split; [exact Hout|].
    rewrite frames_in_message by (destruct p; exact Hlen). destruct p; reflexivity.
  - intros msg -> Hnp. destruct (ws_next_none m w _ w' Hm Hb Hst E) as (_ & _ & s' & r' & _ & _ & Hcase); [discriminate|].
    destruct msg as [p|p|d|d]; [exfalso; now apply (Hnp p)| | |]; apply Hcase.
  - intros ->. destruct (ws_next_none m w _ w' Hm Hb Hst E) as (_ & _ & s' & r' & _ & _ & Hcase); [discriminate|].
    apply Hcase.
Qed.

Lemma example_ping : exists w', ws_next m32 (ws_new ping_stream None) = (Ok (Ping (Some (bs "hey"))), w') /\
  ws_out w' = [n2b 138; n2b 3] ++ bs "hey".
Proof. eexists. split; vm_compute; reflexivity. Qed.

Lemma send_after_close : exists ops w fs,
  ws_run m32 ops (ws_new close_stream None) = Some w /\ frames_in (ws_out w) = Some fs /\
  map rf_op fs = [8; 1]%N.
Proof.
  exists [ONext; OSend (Text (bs "late"))]. eexists. eexists. split; [vm_compute; reflexivity|].
  split; [vm_compute; reflexivity|]. reflexivity.
Qed.

Lemma polite_close_last m s ops w :
  machine_ok m -> small_ops ops -> ws_run_polite m ops (ws_new s None) = Some w ->
  exists fs, Forall (fun f => rf_op f <> 8%N) fs /\
    frames_in (ws_out w) = Some (match ws_st w with WsOpen => fs | WsClosed => fs ++ [RFC true 0 8 None []] end).
Proof.
  intros Hm Hs Hr. destruct (ws_polite_inv m ops _ w Hm Hs (ws_new_inv2 s) Hr) as [_ (fs & Hall & Hf)].
  exists fs. split; [|exact Hf]. eapply Forall_impl; [|exact Hall]. intros f Hf2. unfold is_close in Hf2. now apply N.eqb_neq.
Qed.

Lemma eof_never_closed m n : exists w,
  ws_run m (repeat ONext n) (ws_new [] None) = Some w /\ fst (ws_next m w) = Err ClientError.
Proof.
  exists (ws_new [] None). split.
  - induction n as [|n IH]; [reflexivity|]. cbn [repeat ws_run ws_step]. unfold ws_new in *. rewrite ws_next_eof. exact IH.
  - unfold ws_new. now rewrite ws_next_eof.
Qed.

Lemma close_eventually m (xs : list (N * list piece)) cl rest :
  machine_ok m -> Forall (fun x => delivered m (fst x) (snd x)) xs ->
  piece_ok m cl -> rf_op (pc_frame cl) = 8%N ->
  exists w w', ws_run m (repeat ONext (length xs))
      (ws_new (flat_map (fun x => pieces_stream (snd x)) xs ++ pieces_stream [cl] ++ rest) None) = Some w /\
    ws_next m w = (Err ConnectionClosed, w').
Proof.
  intros Hm Hxs Hcl Hop.
  assert (forall o, exists w w', ws_run m (repeat ONext (length xs))
      (WS WsOpen (flat_map (fun x => pieces_stream (snd x)) xs ++ pieces_stream [cl] ++ rest) o None) = Some w /\
    ws_next m w = (Err ConnectionClosed, w')) as K; [|apply (K [])].
  induction Hxs as [|[op ps] xs Hx Hxs IH]; intros o.
  - cbn [length repeat flat_map app ws_run]. eexists. eexists. split; [reflexivity|].
    unfold ws_next. cbn [ws_st ws_in ws_out ws_budget]. unfold msg_next.
    rewrite (parse_piece m cl [] rest Hm Hcl). unfold frame_view. cbn [op_code]. rewrite Hop. cbn [opcode_named].
    unfold send_close. rewrite ws_write_none by reflexivity. reflexivity.
  - cbn [length repeat flat_map ws_run ws_step snd fst] in *. rewrite <- app_assoc.
    unfold ws_next at 1. cbn [ws_st ws_in ws_out ws_budget].
    rewrite (msg_next_delivered m op ps _ Hm Hx).
    destruct (msg_of_pieces (op, ps)) as [p|p|d|d]; try (apply IH).
    rewrite ws_write_none by reflexivity. apply IH.
Qed.

Lemma failed_write_prefix f budget :
  exists wire, send_frame f None = (wire, Ok tt) /\
  (length wire <= budget -> send_frame f (Some budget) = (wire, Ok tt)) /\
  (budget < length wire -> send_frame f (Some budget) = (firstn budget wire, Err SendIoError)).
Proof.
  exists (frame_wire f). rewrite send_frame_none, send_frame_some. split; [reflexivity|]. split; intros H.
  - rewrite firstn_all2 by exact H. now rewrite (proj2 (Nat.leb_le _ _) H).
  - now rewrite (proj2 (Nat.leb_gt _ _) H).
Qed.
