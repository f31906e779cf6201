(** Frames on arbitrary streams; messages; sending; the WebSocket state machine. *)
From Verif Require Import Base Io IoProofs Utf8 WsModel WsSpec WsBridge WsProofs.
Ltac Zify.zify_post_hook ::= Z.div_mod_to_equations.

(* ------------------------------------------------------------------ *)
(** ** Unmasked and truncated frames *)

Lemma parse_unmasked m fm fin rsv op n tail cs rest :
  (rsv < 8)%N -> (op < 16)%N -> form_fits fm n -> (0 < n)%N ->
  segments cs (rfc_head fm fin rsv op false n ++ tail) -> ~ cut_at cs 1 ->
  exists s', frame_parse m (map Data cs ++ rest) = (Err MaskNotSet, s').
Proof.
  intros Hr Ho Hf Hn Hcs H1.
  destruct (parse_head m fm fin rsv op false n tail cs rest Hr Ho Hf Hcs H1) as (buf & cs' & _ & _ & _ & ->).
  unfold after_head. assert (N.ltb 0 n = true) as -> by lia. eexists. reflexivity.
Qed.

Lemma parse_truncated m fm fin rsv op n key enc cs :
  machine_ok m -> (rsv < 8)%N -> (op < 16)%N -> form_fits fm n -> (n <= max_alloc m)%N -> length key = 4 ->
  (N.of_nat (length enc) < n)%N ->
  segments cs (rfc_head fm fin rsv op true n ++ key ++ enc) ->
  ~ cut_at cs 1 -> (forall i, 0 < i < 4 -> ~ cut_at cs (head_len fm + i)) \/ length enc = 0 /\ (forall i, 0 < i < 4 -> ~ cut_at cs (head_len fm + i)) ->
  exists s', frame_parse m (map Data cs) =
    (Err (if fin then PfIoError else WaitForNextFrame (n - N.of_nat (length enc))), s').
Proof.
  intros Hm Hr Ho Hf Hn Hk Hlt Hcs H1 H4. pose proof frame_cap_big as Hbig.
  assert (head_len fm <= 10) as Hhl by (unfold head_len; destruct fm; simpl; lia).
  destruct (parse_head m fm fin rsv op true n (key ++ enc) cs [] Hr Ho Hf Hcs H1) as (buf & cs' & A & B & C & D).
  rewrite app_nil_r in D. rewrite D. unfold after_head. assert (N.ltb 0 n = true) as -> by lia. cbn [andb negb].
  destruct (read_key m fin n key enc cs' [] buf (head_len fm) Hk A B) as [K _].
  destruct K as (k0 & k1 & k2 & k3 & buf' & cs2 & -> & A2 & B2 & ->).
  { intros i Hi Hc. assert (forall i, 0 < i < 4 -> ~ cut_at cs (head_len fm + i)) as H4' by tauto.
    apply (H4' i Hi). apply C; [lia|]. exact Hc. }
  rewrite app_nil_r.
  destruct (payload_truncated m fin n k0 k1 k2 k3 enc buf' cs2 Hm Hn Hlt A2 B2) as (b' & ->).
  eexists. reflexivity.
Qed.

(* ------------------------------------------------------------------ *)
(** ** Any stream at all *)

Lemma ext_len_spec b : (N.land (b2n b) 127 = b2n b mod 128)%N /\
  ext_len b = (if N.eqb (N.land (b2n b) 127) 126 then 2 else if N.eqb (N.land (b2n b) 127) 127 then 8 else 0).
Proof.
  destruct (bits_byte b) as (_ & _ & _ & _ & _ & E). split; [exact E|]. unfold ext_len. rewrite E. reflexivity.
Qed.

Lemma read_length_any second b r b' : read_length second b = (r, b') ->
  (exists ext, length ext = ext_len second /\ r = Ok (declared_len second ext) /\ avail b = ext ++ avail b') \/
  (exists e, r = Err e).
Proof.
  unfold read_length. destruct (ext_len_spec second) as [E1 E2]. rewrite E1 in *.
  unfold declared_len.
  destruct (N.eqb_spec (b2n second mod 128) 126) as [H6|H6].
  - rewrite H6. pose proof (read_exact_total 2 b) as T. destruct (read_exact 2 b) as [[d|e| |] b1] eqn:E; cbn [fst] in T.
    + intros [= <- <-]. left. exists d. destruct (read_exact_bytes _ _ _ _ E) as [Hl Ha].
      rewrite read_be_value. repeat split; [lia|exact Ha].
    + intros [= <- <-]. right. now exists e.
    + destruct T as [(? & [=] & _)|(? & [=])].
    + destruct T as [(? & [=] & _)|(? & [=])].
  - destruct (N.eqb_spec (b2n second mod 128) 127) as [H7|H7].
    + rewrite H7. pose proof (read_exact_total 8 b) as T. destruct (read_exact 8 b) as [[d|e| |] b1] eqn:E; cbn [fst] in T.
      * intros [= <- <-]. left. exists d. destruct (read_exact_bytes _ _ _ _ E) as [Hl Ha].
        rewrite read_be_value. repeat split; [lia|exact Ha].
      * intros [= <- <-]. right. now exists e.
      * destruct T as [(? & [=] & _)|(? & [=])].
      * destruct T as [(? & [=] & _)|(? & [=])].
    + intros [= <- <-]. left. exists []. repeat split; [auto|]. f_equal.
      destruct (N.ltb_spec (b2n second mod 128) 126); [reflexivity|]. lia.
Qed.

Lemma read_length_size second b : br_size (snd (read_length second b)) <= br_size b.
Proof.
  unfold read_length. destruct (N.eqb _ 126); [|destruct (N.eqb _ 127); [|cbn [snd]; lia]].
  - pose proof (read_exact_size 2 b). destruct (read_exact 2 b) as [[]]; cbn [snd] in *; assumption.
  - pose proof (read_exact_size 8 b). destruct (read_exact 8 b) as [[]]; cbn [snd] in *; assumption.
Qed.

Lemma read_payload_any m fin len b r b' : machine_ok m -> read_payload m fin len b = (r, b') ->
  r <> OutOfFuel /\ br_size b' <= br_size b /\
  (forall d, r = Ok d -> exists key enc, avail b = key ++ enc ++ avail b' /\ length key = 4 /\
     d = xor_key key enc /\ N.of_nat (length enc) = as_usize m len /\ (N.of_nat (length d) <= max_alloc m)%N) /\
  (r = Panic -> (max_alloc m < len)%N).
Proof.
  intros Hm. unfold read_payload.
  pose proof (br_read_bytes 4 b) as Hb1. pose proof (br_read_size 4 b) as Hs1.
  pose proof (br_read_not_panic 4 b) as [Hp Ho].
  destruct (br_read 4 b) as [r1 b1] eqn:E1. cbn [fst snd] in *.
  destruct r1 as [d|e| |]; try congruence.
  2: { intros [= <- <-]. repeat split; try discriminate. exact Hs1. }
  destruct d as [|k0 [|k1 [|k2 [|k3 [|k4 d]]]]];
    try (intros [= <- <-]; repeat split; try discriminate; exact Hs1).
  assert (as_usize m len <= len)%N as Hle.
  { unfold as_usize. apply N.mod_le. apply N.pow_nonzero. lia. }
  destruct (N.ltb_spec (max_alloc m) (as_usize m len)) as [Hbig|Hsmall].
  { intros [= <- <-]. repeat split; try discriminate; [exact Hs1|]. intros _. lia. }
  pose proof (take_to_end_size (read_sizes m) len b1) as Hs2.
  pose proof (take_to_end_total (read_sizes m) len b1) as T.
  destruct (take_to_end (read_sizes m) len b1) as [r2 b2] eqn:E2. cbn [fst snd] in *.
  destruct r2 as [enc|e| |].
  - destruct (take_to_end_bytes _ _ _ _ _ E2) as [Hl Ha]. cbv zeta.
    destruct (N.ltb_spec (max_alloc m) (N.of_nat (length enc))) as [Hbig2|Hsmall2].
    { intros [= <- <-]. repeat split; try discriminate; [lia|]. intros _. lia. }
    destruct (N.eqb_spec (N.of_nat (length enc)) (as_usize m len)) as [Heq|Hneq]; cbn [negb].
    + intros [= <- <-]. repeat split; try discriminate; [lia|].
      intros d [= <-]. exists [k0; k1; k2; k3], enc. rewrite unmask_xor.
      change (xor_from [k0; k1; k2; k3] 0 enc) with (xor_key [k0; k1; k2; k3] enc).
      repeat split; auto.
      * rewrite Hb1, Ha. reflexivity.
      * rewrite xor_key_length. lia.
    + destruct (negb fin && N.ltb (N.of_nat (length enc)) len)%bool;
        intros [= <- <-]; repeat split; try discriminate; lia.
  - intros [= <- <-]. repeat split; try discriminate. lia.
  - destruct T as [(? & [=] & _)|(? & [=])].
  - destruct T as [(? & [=] & _)|(? & [=])].
Qed.

(** Whatever arrives, a returned frame was on the wire, complete up to the truncation of its
    declared length to [usize]; a panic means an unallocatable declared length. *)
Lemma frame_parse_any m s r s' : machine_ok m -> frame_parse m s = (r, s') ->
  r <> OutOfFuel /\ stream_size s' <= stream_size s /\
  (forall f, r = Ok f -> stream_size s' < stream_size s /\
    exists a b ext key enc lost,
    bytes_of s = a :: b :: ext ++ key ++ enc ++ lost ++ bytes_of s' /\
    length ext = ext_len b /\
    fin f = (128 <=? b2n a)%N /\ rsv1 f = N.testbit ((b2n a / 16) mod 8) 2 /\
    rsv2 f = N.testbit ((b2n a / 16) mod 8) 1 /\ rsv3 f = N.testbit ((b2n a / 16) mod 8) 0 /\
    op_code f = opcode_named (b2n a mod 16) /\
    decoded f = xor_key key enc /\
    (N.of_nat (length enc) = declared_len b ext mod 2 ^ ptr_width m)%N /\
    (declared_len b ext = 0 /\ key = [] \/ 0 < declared_len b ext /\ mask_bit b = true /\ length key = 4%nat)%N /\
    (N.of_nat (length (decoded f)) <= max_alloc m)%N) /\
  (r = Panic -> exists a b ext tl, bytes_of s = a :: b :: ext ++ tl /\ length ext = ext_len b /\
     (max_alloc m < declared_len b ext)%N).
Proof.
  intros Hm. unfold frame_parse.
  pose proof (br_read_bytes 2 (BR [] frame_cap s)) as Hb1.
  pose proof (br_read_any 2 (BR [] frame_cap s)) as [_ Hany].
  destruct (br_read 2 (BR [] frame_cap s)) as [r1 b1] eqn:E1. cbn [fst snd] in *.
  unfold avail in Hb1 at 1. cbn [br_buf br_in app length] in *.
  assert (stream_size (br_in b1) <= stream_size s) as Hsz1.
  { destruct Hany as [(d & _ & _ & Hz) | (e & _ & Hz)]; lia. }
  destruct r1 as [d|e| |].
  2: { intros [= <- <-]. repeat split; try discriminate. exact Hsz1. }
  2,3: exfalso; destruct Hany as [(d & [=] & _) | (e & [=] & _)].
  destruct d as [|a [|b [|c d]]].
  1,2,4: intros [= <- <-]; repeat split; try discriminate; exact Hsz1.
  assert (br_size b1 + 2 <= stream_size s) as Hsz2.
  { unfold br_size. destruct Hany as [(d & [= <-] & _ & Hz) | (e & [=] & _)]. simpl in Hz. lia. }
  destruct (bits_byte a) as (A1 & A2 & A3 & A4 & A5 & _).
  rewrite A5, opcode_of_named by (pose proof (b2n_lt a); lia).
  pose proof (read_length_size b b1) as Hsz3.
  destruct (read_length b b1) as [rl b2] eqn:E2. cbn [snd] in Hsz3.
  assert (forall b0, stream_size (br_in b0) <= br_size b0) as Hin by (intros b0; unfold br_size; lia).
  pose proof (Hin b2) as Hin2.
  destruct (read_length_any _ _ _ _ E2) as [(ext & Hel & -> & Ha) | (e & ->)].
  2: { intros [= <- <-]. repeat split; try discriminate. lia. }
  destruct (bits_byte b) as (B1 & _).
  set (len := declared_len b ext) in *.
  destruct (N.ltb_spec 0 len) as [Hpos|Hzero].
  - destruct (bit_set b 128) eqn:Hmask; cbn [andb negb].
    2: { intros [= <- <-]. repeat split; try discriminate. lia. }
    destruct (read_payload m (bit_set a 128) len b2) as [rp b3] eqn:E3.
    destruct (read_payload_any m _ _ _ _ _ Hm E3) as (Hno & Hsz4 & Hok & Hpanic).
    pose proof (Hin b3) as Hin3.
    destruct rp as [d|e| |].
    + intros [= <- <-]. split; [discriminate|]. split; [lia|]. split; [|discriminate].
      intros f [= <-]. split; [lia|].
      destruct (Hok d eq_refl) as (key & enc & Hav & Hk & -> & Hl & Hmax).
      exists a, b, ext, key, enc, (br_buf b3). cbn [fin rsv1 rsv2 rsv3 op_code decoded].
      repeat split; auto.
      * rewrite Hb1, Ha, Hav. unfold avail. reflexivity.
    + intros [= <- <-]. repeat split; try discriminate. lia.
    + intros [= <- <-]. repeat split; try discriminate; [lia|].
      intros _. exists a, b, ext, (avail b2). rewrite Hb1, Ha. repeat split; auto.
    + congruence.
  - cbn [andb]. intros [= <- <-]. split; [discriminate|]. split; [lia|]. split; [|discriminate].
    intros f [= <-]. split; [lia|].
    assert (len = 0)%N as Hz by lia.
    exists a, b, ext, [], [], (br_buf b2). cbn [fin rsv1 rsv2 rsv3 op_code decoded]. fold len. rewrite Hz.
    repeat split; auto.
    + rewrite Hb1, Ha. reflexivity.
    + cbn. lia.
Qed.

(* ------------------------------------------------------------------ *)
(** ** Messages delivered in fragments *)

Lemma pieces_stream_cons p ps rest :
  pieces_stream (p :: ps) ++ rest = map Data (pc_segs p) ++ (pieces_stream ps ++ rest).
Proof. unfold pieces_stream. cbn [map concat]. rewrite map_app, app_assoc. reflexivity. Qed.

Lemma parse_piece m p ps rest : machine_ok m -> piece_ok m p ->
  frame_parse m (pieces_stream (p :: ps) ++ rest) = (Ok (frame_view (pc_frame p)), pieces_stream ps ++ rest).
Proof. intros Hm [Hc Hw]. rewrite pieces_stream_cons. eapply parse_well_cut; eauto. Qed.

Lemma stream_size_app a b : stream_size (a ++ b) = stream_size a + stream_size b.
Proof. induction a as [|e a IH]; simpl; [reflexivity|]. rewrite IH. lia. Qed.

Lemma pieces_size m ps rest : Forall (piece_ok m) ps -> length ps <= stream_size (pieces_stream ps ++ rest).
Proof.
  induction 1 as [|p ps [Hc [[Hne Hcs] Hw]] Hps IH]; [simpl; lia|].
  rewrite pieces_stream_cons, stream_size_app. simpl length.
  assert (1 <= stream_size (map Data (pc_segs p))); [|lia].
  destruct (pc_segs p) as [|c cs]; [|simpl; lia]. exfalso.
  unfold rfc_encode, rfc_header, rfc_head in Hcs. discriminate.
Qed.

Definition payload_fits (m : machine) (d : str) : Prop := (N.of_nat (length d) <= max_alloc m)%N.

Lemma msg_loop_pieces m fuel op payload mids l ps rest :
  machine_ok m -> Forall (piece_ok m) ps -> map pc_frame ps = mids ++ [l] ->
  Forall (fun g => rf_fin g = false /\ rf_op g = 0%N) mids -> rf_fin l = true -> rf_op l = 0%N ->
  payload_fits m (payload ++ payload_of (mids ++ [l])) -> length ps <= fuel ->
  msg_loop m fuel op payload (pieces_stream ps ++ rest) =
  (build_message op (payload ++ payload_of (mids ++ [l])), rest).
Proof.
  intros Hm. revert payload mids ps. induction fuel as [|fuel IH]; intros payload mids ps Hps Hmap Hmids Hl Hlo Hfit Hfuel.
  { destruct ps; [destruct mids; discriminate|]. simpl in Hfuel. lia. }
  destruct ps as [|p ps]; [destruct mids; discriminate|].
  inversion Hps as [|? ? Hp Hps']; subst. cbn [msg_loop]. rewrite (parse_piece m p ps rest Hm Hp).
  destruct mids as [|g mids]; cbn [map app] in Hmap; injection Hmap as Hf Hmap.
  - destruct ps; [|discriminate]. rewrite Hf. unfold frame_view. rewrite Hl, Hlo. cbn [op_code fin decoded opcode_named].
    unfold payload_of in *. cbn [map concat app] in *. rewrite app_nil_r in *.
    unfold payload_fits in Hfit.
    assert (N.ltb (max_alloc m) (N.of_nat (length (payload ++ rf_payload l))) = false) as -> by lia. reflexivity.
  - inversion Hmids as [|? ? [Hg Hgo] Hmids']; subst. unfold frame_view. rewrite Hg, Hgo.
    cbn [op_code fin decoded opcode_named].
    assert (payload ++ payload_of ((pc_frame p :: mids) ++ [l]) =
            (payload ++ rf_payload (pc_frame p)) ++ payload_of (mids ++ [l])) as E.
    { unfold payload_of. cbn [app map concat]. now rewrite app_assoc. }
    rewrite E in *.
    assert (N.ltb (max_alloc m) (N.of_nat (length (payload ++ rf_payload (pc_frame p)))) = false) as ->.
    { unfold payload_fits in Hfit. rewrite app_length in Hfit. lia. }
    rewrite (IH _ mids ps); auto. simpl in Hfuel. lia.
Qed.

Lemma opcode_named_not_terminate op : op <> 8%N -> opcode_named op <> OpTerminate.
Proof.
  intros H. destruct (N.ltb_spec op 16) as [L|L].
  - assert (op = 0 \/ op = 1 \/ op = 2 \/ op = 3 \/ op = 4 \/ op = 5 \/ op = 6 \/ op = 7 \/ op = 9 \/
      op = 10 \/ op = 11 \/ op = 12 \/ op = 13 \/ op = 14 \/ op = 15)%N as E by lia.
    repeat (destruct E as [->|E]; [discriminate|]). subst. discriminate.
  - destruct op as [|[[[[p|p|]|[p|p|]|]|[[p|p|]|[p|p|]|]|]|[[[p|p|]|[p|p|]|]|[[p|p|]|[p|p|]|]|]|]]; try discriminate; lia.
Qed.

Lemma msg_next_pieces m op fs ps rest :
  machine_ok m -> Forall (piece_ok m) ps -> map pc_frame ps = fs -> fragments_of op fs -> op <> 8%N ->
  payload_fits m (payload_of fs) ->
  msg_next m (pieces_stream ps ++ rest) = (build_message (opcode_named op) (payload_of fs), rest).
Proof.
  intros Hm Hps Hmap Hfr Hop Hfit. pose proof (opcode_named_not_terminate op Hop) as Hnt. unfold msg_next.
  destruct Hfr as [(f & -> & Hfin & Ho) | (f & mids & l & -> & Hfin & Ho & Hmids & Hl & Hlo)].
  - destruct ps as [|p [|q ps]]; try discriminate. injection Hmap as Hp.
    inversion Hps as [|? ? Hp0 Hps']; subst. rewrite (parse_piece m p [] rest Hm Hp0).
    unfold frame_view. cbn [op_code fin decoded].
    rewrite Hfin. unfold payload_of. cbn [map concat]. rewrite app_nil_r.
    destruct (opcode_named (rf_op (pc_frame p))); try reflexivity. congruence.
  - destruct ps as [|p ps]; [discriminate|]. injection Hmap as Hp Hmap.
    inversion Hps as [|? ? Hp0 Hps']; subst. rewrite (parse_piece m p ps rest Hm Hp0).
    unfold frame_view. cbn [op_code fin decoded]. rewrite Hfin.
    assert (payload_of (pc_frame p :: mids ++ [l]) = rf_payload (pc_frame p) ++ payload_of (mids ++ [l])) as E by reflexivity.
    rewrite E in *.
    pose proof (pieces_size m ps rest Hps') as Hsz.
    assert (forall o, msg_loop m (S (stream_size (pieces_stream ps ++ rest))) o (rf_payload (pc_frame p)) (pieces_stream ps ++ rest) =
      (build_message o (rf_payload (pc_frame p) ++ payload_of (mids ++ [l])), rest)) as K.
    { intros o. apply msg_loop_pieces; auto; lia. }
    destruct (opcode_named (rf_op (pc_frame p))); try (apply K). congruence.
Qed.

(** A close frame ends the message being assembled, wherever it comes. *)
Lemma msg_loop_close m fuel op payload mids cl ps rest :
  machine_ok m -> Forall (piece_ok m) ps -> map pc_frame ps = mids ++ [cl] ->
  Forall (fun g => rf_fin g = false /\ rf_op g = 0%N) mids -> rf_op cl = 8%N ->
  payload_fits m (payload ++ payload_of mids) -> length ps <= fuel ->
  msg_loop m fuel op payload (pieces_stream ps ++ rest) = (Err ClientSentCloseFrame, rest).
Proof.
  intros Hm. revert payload mids ps. induction fuel as [|fuel IH]; intros payload mids ps Hps Hmap Hmids Hlo Hfit Hfuel.
  { destruct ps; [destruct mids; discriminate|]. simpl in Hfuel. lia. }
  destruct ps as [|p ps]; [destruct mids; discriminate|].
  inversion Hps as [|? ? Hp Hps']; subst. cbn [msg_loop]. rewrite (parse_piece m p ps rest Hm Hp).
  destruct mids as [|g mids]; cbn [map app] in Hmap; injection Hmap as Hf Hmap.
  - destruct ps; [|discriminate]. rewrite Hf. unfold frame_view. rewrite Hlo. reflexivity.
  - inversion Hmids as [|? ? [Hg Hgo] Hmids']; subst. unfold frame_view. rewrite Hg, Hgo.
    cbn [op_code fin decoded opcode_named].
    assert (payload ++ payload_of (pc_frame p :: mids) = (payload ++ rf_payload (pc_frame p)) ++ payload_of mids) as E.
    { unfold payload_of. cbn [app map concat]. now rewrite app_assoc. }
    rewrite E in *.
    assert (N.ltb (max_alloc m) (N.of_nat (length (payload ++ rf_payload (pc_frame p)))) = false) as ->.
    { unfold payload_fits in Hfit. rewrite app_length in Hfit. lia. }
    rewrite (IH _ mids ps); auto. simpl in Hfuel. lia.
Qed.

Lemma msg_next_close m op f mids cl ps rest :
  machine_ok m -> Forall (piece_ok m) ps ->
  (map pc_frame ps = [cl] \/
   map pc_frame ps = f :: mids ++ [cl] /\ rf_fin f = false /\ rf_op f = op /\
   Forall (fun g => rf_fin g = false /\ rf_op g = 0%N) mids) ->
  rf_op cl = 8%N -> payload_fits m (payload_of (f :: mids)) ->
  exists rest', msg_next m (pieces_stream ps ++ rest) = (Err ClientSentCloseFrame, rest') /\
    (op <> 8%N \/ map pc_frame ps = [cl] -> rest' = rest).
Proof.
  intros Hm Hps Hmap Hcl Hfit. unfold msg_next.
  destruct ps as [|p ps]; [destruct Hmap as [Hmap|[Hmap _]]; discriminate|].
  inversion Hps as [|? ? Hp Hps']; subst. rewrite (parse_piece m p ps rest Hm Hp).
  destruct Hmap as [Hmap | (Hmap & Hfin & Ho & Hmids)].
  - injection Hmap as Hf Hps0. destruct ps; [|discriminate]. rewrite Hf. unfold frame_view. rewrite Hcl.
    cbn [op_code opcode_named]. exists rest. auto.
  - injection Hmap as Hf Hmap. subst f. unfold frame_view. cbn [op_code fin decoded]. rewrite Hfin.
    pose proof (pieces_size m ps rest Hps') as Hsz.
    assert (forall o, msg_loop m (S (stream_size (pieces_stream ps ++ rest))) o (rf_payload (pc_frame p)) (pieces_stream ps ++ rest) =
      (Err ClientSentCloseFrame, rest)) as K.
    { intros o. eapply msg_loop_close; eauto. }
    rewrite Ho. destruct (N.eq_dec op 8) as [->|Hne].
    + cbn [opcode_named]. exists (pieces_stream ps ++ rest). split; [reflexivity|].
      intros [H|H]; [congruence|]. injection H as _ H. rewrite H in Hmap. destruct mids; discriminate.
    + exists rest. split; [|auto]. pose proof (opcode_named_not_terminate op Hne).
      destruct (opcode_named op); try (apply K). congruence.
Qed.

(** Any non-continuation, non-close frame inside a message kills it. *)
Lemma msg_loop_interleaved m fuel op payload mids c ps rest :
  machine_ok m -> Forall (piece_ok m) ps -> map pc_frame ps = mids ++ [c] ->
  Forall (fun g => rf_fin g = false /\ rf_op g = 0%N) mids -> opcode_named (rf_op c) <> OpTerminate ->
  opcode_named (rf_op c) <> OpContinue ->
  payload_fits m (payload ++ payload_of mids) -> length ps <= fuel ->
  msg_loop m fuel op payload (pieces_stream ps ++ rest) = (Err ClientProtocolViolation, rest).
Proof.
  intros Hm. revert payload mids ps. induction fuel as [|fuel IH]; intros payload mids ps Hps Hmap Hmids Hlo Hlc Hfit Hfuel.
  { destruct ps; [destruct mids; discriminate|]. simpl in Hfuel. lia. }
  destruct ps as [|p ps]; [destruct mids; discriminate|].
  inversion Hps as [|? ? Hp Hps']; subst. cbn [msg_loop]. rewrite (parse_piece m p ps rest Hm Hp).
  destruct mids as [|g mids]; cbn [map app] in Hmap; injection Hmap as Hf Hmap.
  - destruct ps; [|discriminate]. rewrite Hf. unfold frame_view. cbn [op_code].
    destruct (opcode_named (rf_op c)); try reflexivity; congruence.
  - inversion Hmids as [|? ? [Hg Hgo] Hmids']; subst. unfold frame_view. rewrite Hg, Hgo.
    cbn [op_code fin decoded opcode_named].
    assert (payload ++ payload_of (pc_frame p :: mids) = (payload ++ rf_payload (pc_frame p)) ++ payload_of mids) as E.
    { unfold payload_of. cbn [app map concat]. now rewrite app_assoc. }
    rewrite E in *.
    assert (N.ltb (max_alloc m) (N.of_nat (length (payload ++ rf_payload (pc_frame p)))) = false) as ->.
    { unfold payload_fits in Hfit. rewrite app_length in Hfit. lia. }
    rewrite (IH _ mids ps); auto. simpl in Hfuel. lia.
Qed.

(* ------------------------------------------------------------------ *)
(** ** Messages on any stream *)

(** [frame_chain m s fs s']: consecutive [Frame::parse] calls from [s] return [fs] and end in [s']. *)
Inductive frame_chain (m : machine) : stream -> list frame -> stream -> Prop :=
| fc_nil s : frame_chain m s [] s
| fc_cons s f s1 fs s2 : frame_parse m s = (Ok f, s1) -> frame_chain m s1 fs s2 -> frame_chain m s (f :: fs) s2.

Definition total_len (fs : list frame) : nat := length (concat (map decoded fs)).

Lemma chain_bytes m s fs s' : machine_ok m -> frame_chain m s fs s' ->
  exists pre, bytes_of s = pre ++ bytes_of s' /\ total_len fs <= length pre.
Proof.
  intros Hm. induction 1 as [s|s f s1 fs s2 Hp Hc IH]; [exists []; split; [reflexivity|simpl; auto]|].
  destruct IH as (pre & Hb & Hl).
  destruct (frame_parse_any m s _ s1 Hm Hp) as (_ & _ & Hok & _).
  destruct (Hok f eq_refl) as (_ & a & b & ext & key & enc & lost & Hby & _ & _ & _ & _ & _ & _ & Hd & _ & _).
  exists (a :: b :: ext ++ key ++ enc ++ lost ++ pre). split.
  - rewrite Hby, Hb. simpl. now rewrite <- !app_assoc.
  - unfold total_len in *. cbn [map concat length]. rewrite app_length, Hd, xor_key_length.
    rewrite !app_length. lia.
Qed.

(** The frames of one message, as puck sees them. *)
Definition message_frames (fs : list frame) : Prop :=
  exists f mids, fs = f :: mids /\
    (mids = [] /\ fin f = true \/
     fin f = false /\ exists ms l, mids = ms ++ [l] /\ fin l = true /\ op_code l = OpContinue /\
       Forall (fun g => fin g = false /\ op_code g = OpContinue) ms).

Lemma msg_loop_any m fuel op payload s r s' : machine_ok m -> stream_size s < fuel ->
  msg_loop m fuel op payload s = (r, s') ->
  r <> OutOfFuel /\ stream_size s' <= stream_size s /\
  (forall msg, r = Ok msg -> exists ms l, frame_chain m s (ms ++ [l]) s' /\
     fin l = true /\ op_code l = OpContinue /\ Forall (fun g => fin g = false /\ op_code g = OpContinue) ms /\
     build_message op (payload ++ concat (map decoded (ms ++ [l]))) = Ok msg /\
     payload_fits m (payload ++ concat (map decoded (ms ++ [l])))) /\
  (r = Err ClientSentCloseFrame -> exists ms l, frame_chain m s (ms ++ [l]) s' /\ op_code l = OpTerminate /\
     Forall (fun g => fin g = false /\ op_code g = OpContinue) ms) /\
  (r = Panic -> exists ms s1, frame_chain m s ms s1 /\
     ((exists s2, frame_parse m s1 = (Panic, s2)) \/
      (max_alloc m < N.of_nat (length payload + total_len ms))%N)).
Proof.
  intros Hm. revert payload s. induction fuel as [|fuel IH]; intros payload s Hf; [lia|]. cbn [msg_loop].
  destruct (frame_parse m s) as [rf s1] eqn:E.
  destruct (frame_parse_any m s rf s1 Hm E) as (Hno & Hsz & Hok & _).
  destruct rf as [f|e| |].
  - destruct (Hok f eq_refl) as (Hlt & _).
    destruct (op_code f) eqn:Eop;
      try (intros [= <- <-]; repeat split; try discriminate; exact Hsz).
    + destruct (N.ltb_spec (max_alloc m) (N.of_nat (length (payload ++ decoded f)))) as [Hbig|Hsmall].
      { intros [= <- <-]. repeat split; try discriminate; [exact Hsz|]. intros _.
        exists [f], s1. split; [econstructor; [exact E|constructor]|]. right.
        unfold total_len. cbn [map concat]. rewrite app_nil_r. rewrite app_length in Hbig. lia. }
      destruct (fin f) eqn:Efin.
      * intros [= <- <-]. assert (build_message op (payload ++ decoded f) <> OutOfFuel /\
          build_message op (payload ++ decoded f) <> Panic /\ build_message op (payload ++ decoded f) <> Err ClientSentCloseFrame) as (B1 & B2 & B3).
        { unfold build_message. destruct op; repeat split; try discriminate; destruct (valid_utf8 _); discriminate. }
        repeat split; auto; try contradiction.
        intros msg Hmsg. exists [], f. cbn [app map concat]. rewrite app_nil_r.
        split; [econstructor; [exact E|constructor]|]. repeat split; auto.
      * intros H. destruct (IH (payload ++ decoded f) s1 ltac:(lia) H) as (I1 & I2 & I3 & I4 & I5).
        repeat split; auto; [lia| | |].
        -- intros msg Hmsg. destruct (I3 msg Hmsg) as (ms & l & Hc & Hl & Hlo & Hms & Hb & Hpf).
           exists (f :: ms), l. cbn [app map concat]. rewrite app_assoc. repeat split; auto.
           econstructor; eauto.
        -- intros Hr. destruct (I4 Hr) as (ms & l & Hc & Hl & Hms). exists (f :: ms), l. repeat split; auto.
           cbn [app]. econstructor; eauto.
        -- intros Hr. destruct (I5 Hr) as (ms & s2 & Hc & Hd). exists (f :: ms), s2. split; [econstructor; eauto|].
           destruct Hd as [Hd|Hd]; [now left|]. right. unfold total_len in *. cbn [map concat].
           rewrite app_length in *. lia.
    + intros [= <- <-]. repeat split; try discriminate; [exact Hsz|]. intros _.
      exists [], f. cbn [app]. repeat split; auto. econstructor; [exact E|constructor].
  - intros [= <- <-]. repeat split; try discriminate. exact Hsz.
  - intros [= <- <-]. repeat split; try discriminate; [exact Hsz|]. intros _. exists [], s. split; [constructor|].
    left. exists s1. exact E.
  - congruence.
Qed.

Lemma msg_next_any m s r s' : machine_ok m -> msg_next m s = (r, s') ->
  r <> OutOfFuel /\ stream_size s' <= stream_size s /\
  (forall msg, r = Ok msg -> stream_size s' < stream_size s /\ exists f fs, frame_chain m s (f :: fs) s' /\ message_frames (f :: fs) /\
     build_message (op_code f) (concat (map decoded (f :: fs))) = Ok msg /\
     payload_fits m (concat (map decoded (f :: fs)))) /\
  (r = Err ClientSentCloseFrame -> stream_size s' < stream_size s /\
     exists fs l, frame_chain m s (fs ++ [l]) s' /\ op_code l = OpTerminate) /\
  (r = Panic -> exists fs s1, frame_chain m s fs s1 /\
     ((exists s2, frame_parse m s1 = (Panic, s2)) \/ (max_alloc m < N.of_nat (total_len fs))%N)).
Proof.
  intros Hm. unfold msg_next. destruct (frame_parse m s) as [rf s1] eqn:E.
  destruct (frame_parse_any m s rf s1 Hm E) as (Hno & Hsz & Hok & _).
  destruct rf as [f|e| |].
  2: { intros [= <- <-]. repeat split; try discriminate. exact Hsz. }
  3: congruence.
  2: { intros [= <- <-]. repeat split; try discriminate; [exact Hsz|]. intros _. exists [], s. split; [constructor|].
       left. exists s1. exact E. }
  destruct (Hok f eq_refl) as (Hlt & a & b & ext & key & enc & lost & _ & _ & _ & _ & _ & _ & _ & _ & _ & _ & Hmax).
  assert (forall op, op_code f = op -> op <> OpTerminate ->
    (if fin f then (build_message op (decoded f), s1) else msg_loop m (S (stream_size s1)) op (decoded f) s1) = (r, s') ->
    r <> OutOfFuel /\ stream_size s' <= stream_size s /\
    (forall msg, r = Ok msg -> stream_size s' < stream_size s /\ exists f fs, frame_chain m s (f :: fs) s' /\ message_frames (f :: fs) /\
     build_message (op_code f) (concat (map decoded (f :: fs))) = Ok msg /\
     payload_fits m (concat (map decoded (f :: fs)))) /\
    (r = Err ClientSentCloseFrame -> stream_size s' < stream_size s /\
       exists fs l, frame_chain m s (fs ++ [l]) s' /\ op_code l = OpTerminate) /\
    (r = Panic -> exists fs s1, frame_chain m s fs s1 /\
     ((exists s2, frame_parse m s1 = (Panic, s2)) \/ (max_alloc m < N.of_nat (total_len fs))%N))) as K.
  { intros op Eop Hnt. destruct (fin f) eqn:Efin.
    - intros [= <- <-]. assert (build_message op (decoded f) <> OutOfFuel /\
        build_message op (decoded f) <> Panic /\ build_message op (decoded f) <> Err ClientSentCloseFrame) as (B1 & B2 & B3).
      { unfold build_message. destruct op; repeat split; try discriminate; destruct (valid_utf8 _); discriminate. }
      split; [auto|]. split; [lia|]. split; [|split; [contradiction|contradiction]].
      intros msg Hmsg. split; [lia|]. exists f, []. cbn [map concat]. rewrite app_nil_r, Eop.
      split; [econstructor; [exact E|constructor]|]. split; [|split; [exact Hmsg|exact Hmax]].
      exists f, []. split; [reflexivity|]. left. auto.
    - intros H. destruct (msg_loop_any m _ op (decoded f) s1 r s' Hm (Nat.lt_succ_diag_r _) H) as (I1 & I2 & I3 & I4 & I5).
      split; [auto|]. split; [lia|]. split; [|split].
      + intros msg Hmsg. split; [lia|]. destruct (I3 msg Hmsg) as (ms & l & Hc & Hl & Hlo & Hms & Hb & Hpf).
        exists f, (ms ++ [l]). cbn [map concat]. rewrite Eop. split; [econstructor; eauto|]. split; [|split; [exact Hb|exact Hpf]].
        exists f, (ms ++ [l]). split; [reflexivity|]. right. split; [exact Efin|]. exists ms, l. auto.
      + intros Hr. split; [lia|]. destruct (I4 Hr) as (ms & l & Hc & Hl & _). exists (f :: ms), l. split; [cbn [app]; econstructor; eauto|exact Hl].
      + intros Hr. destruct (I5 Hr) as (ms & s2 & Hc & Hd). exists (f :: ms), s2. split; [econstructor; eauto|].
        destruct Hd as [Hd|Hd]; [now left|]. right. unfold total_len in *. cbn [map concat]. rewrite app_length. exact Hd. }
  destruct (op_code f) eqn:Eop; try (intros H; apply (K _ eq_refl ltac:(discriminate) H)).
  intros [= <- <-]. split; [discriminate|]. split; [lia|]. split; [discriminate|]. split; [|discriminate].
  intros _. split; [lia|]. exists [], f. cbn [app]. split; [econstructor; [exact E|constructor]|exact Eop].
Qed.
