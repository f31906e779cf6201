(** Exact forms of the WebSocket properties that fail: what happens instead, for every input. *)
From Verif Require Import Base Io IoProofs Utf8 WsModel WsSpec WsBridge WsProofs WsProofs2 WsProofs3 WsLemmas.
Ltac Zify.zify_post_hook ::= Z.div_mod_to_equations.

(** ** C02, exactly: the minimal form, except for payloads of 65535 bytes, which get the 64-bit form. *)
Theorem C02_form_exactly : forall msg, let n := N.of_nat (length (message_payload msg)) in
  fst (send_message msg None) =
  rfc_encode (if (n =? 65535)%N then Len64 else minimal_form n) (RFC true 0 (message_op msg) None (message_payload msg)).
Proof.
  intros msg n. destruct (N.eqb_spec n 65535) as [E|E]; [|now apply minimal_length_elsewhere].
  rewrite sent_wire. fold n. unfold puck_form. rewrite E. reflexivity.
Qed.
Print Assumptions C02_form_exactly.

(** ** C07 and C14, exactly. A masked frame header (of a nonempty frame), the key and [sent] are all that ever
    arrives, with no boundary inside the first two bytes or the key. [got] is what the frame takes of it. *)
Definition got (n : N) (sent : str) : str := if (n <=? N.of_nat (length sent))%N then firstn (N.to_nat n) sent else sent.

Lemma payload_exactly m fin n k0 k1 k2 k3 enc buf cs : machine_ok m ->
  Forall (fun c => c <> []) cs -> buf ++ concat cs = enc ->
  let short := (n mod 2 ^ ptr_width m)%N in
  fst (payload_done m fin n k0 k1 k2 k3 (BR buf frame_cap (map Data cs))) =
  if ((max_alloc m <? short) || (max_alloc m <? N.of_nat (length (got n enc))))%N%bool then Panic
  else if (N.of_nat (length (got n enc)) =? short)%N then Ok (xor_key [k0; k1; k2; k3] (got n enc))
  else if (negb fin && (N.of_nat (length (got n enc)) <? n))%N%bool then Err (WaitForNextFrame (n - N.of_nat (length (got n enc))))
  else Err PfIoError.
Proof.
  intros Hm Hne Hsp short. pose proof frame_cap_big. unfold payload_done, as_usize. fold short.
  destruct (N.ltb_spec (max_alloc m) short) as [Hb|Hb]; [reflexivity|]. cbn [orb].
  assert (rep true (BR buf frame_cap (map Data cs)) enc []) as Hrep.
  { apply rep_mono. exists (concat cs). split; [auto|]. rewrite <- (app_nil_r (map Data cs)). now apply delivers_chunks. }
  assert (exists b', take_to_end (read_sizes m) n (BR buf frame_cap (map Data cs)) = (Ok (got n enc), b')) as [b' ->].
  { unfold got. destruct (N.leb_spec n (N.of_nat (length enc))).
    - destruct (take_to_end_rep true (read_sizes m) n _ enc [] (proj2 (proj2 Hm)) Hrep) as (b' & -> & _); [simpl; lia|assumption|]. now exists b'.
    - apply take_to_end_eof; [exact (proj2 (proj2 Hm))|exact Hrep|simpl; lia|assumption]. }
  cbv zeta. destruct (N.ltb_spec (max_alloc m) (N.of_nat (length (got n enc)))); [reflexivity|].
  destruct (N.eqb_spec (N.of_nat (length (got n enc))) short); cbn [negb fst].
  - now rewrite unmask_xor.
  - destruct (negb fin && _)%bool; reflexivity.
Qed.

Theorem C07_frame_exactly : forall m fm fin rsv op n key sent cs,
  machine_ok m -> (rsv < 8)%N -> (op < 16)%N -> form_fits fm n -> (0 < n)%N -> length key = 4 ->
  segments cs (rfc_head fm fin rsv op true n ++ key ++ sent) ->
  ~ cut_at cs 1 -> (forall i, 0 < i < 4 -> ~ cut_at cs (head_len fm + i)) ->
  let short := (n mod 2 ^ ptr_width m)%N in let len := N.of_nat (length (got n sent)) in
  (* unallocatable: a panic *)
  ((max_alloc m < short \/ max_alloc m < len)%N -> fst (frame_parse m (map Data cs)) = Panic) /\
  (* as many bytes as the declared length has, cut off to the size of a pointer: delivered *)
  ((short <= max_alloc m)%N -> len = short ->
     fst (frame_parse m (map Data cs)) = Ok (frame_view (RFC fin rsv op (Some key) (xor_key key (got n sent))))) /\
  (* otherwise an error *)
  ((short <= max_alloc m)%N -> (len <= max_alloc m)%N -> len <> short ->
     fst (frame_parse m (map Data cs)) = Err (if (negb fin && (len <? n)%N)%bool then WaitForNextFrame (n - len) else PfIoError)).
Proof.
  intros m fm fin rsv op n key sent cs Hm Hrsv Hop Hfit Hn Hk Hcs H1 H4 short len. pose proof frame_cap_big as Hbig.
  assert (head_len fm <= 10) as Hhl by (unfold head_len; destruct fm; simpl; lia).
  destruct (parse_head m fm fin rsv op true n (key ++ sent) cs [] Hrsv Hop Hfit Hcs H1) as (buf & cs' & A & B & C & D).
  rewrite !app_nil_r in D. rewrite D. unfold after_head.
  assert (N.ltb 0 n = true) as -> by lia. cbn [negb andb].
  destruct (read_key m fin n key sent cs' [] buf (head_len fm) Hk A B) as [K _].
  destruct K as (k0 & k1 & k2 & k3 & buf' & cs2 & -> & A2 & B2 & E).
  { intros i Hi Hc. apply (H4 i Hi). apply C; [lia|]. exact Hc. }
  rewrite !app_nil_r in E. rewrite E.
  pose proof (payload_exactly m fin n k0 k1 k2 k3 sent buf' cs2 Hm A2 B2) as P. cbv zeta in P. fold short in P. fold len in P.
  destruct (payload_done _ _ _ _ _ _ _ _) as [r b']. cbn [fst] in P. subst r.
  split; [|split].
  - intros Hp. assert ((max_alloc m <? short)%N || (max_alloc m <? len)%N = true)%bool as -> by (apply orb_true_iff; rewrite !N.ltb_lt; exact Hp).
    reflexivity.
  - intros Hs El. assert ((max_alloc m <? short)%N || (max_alloc m <? len)%N = false)%bool as -> by (apply orb_false_iff; rewrite !N.ltb_ge; lia).
    rewrite El, N.eqb_refl. reflexivity.
  - intros Hs Hl El. assert ((max_alloc m <? short)%N || (max_alloc m <? len)%N = false)%bool as -> by (apply orb_false_iff; rewrite !N.ltb_ge; lia).
    assert ((len =? short)%N = false) as -> by lia. destruct (negb fin && _)%bool; reflexivity.
Qed.
Print Assumptions C07_frame_exactly.
(** So, for frames that do arrive: the panic is exactly the unallocatable length. *)
Theorem C14_crash_exactly : forall m fm fin rsv op n key sent cs,
  machine_ok m -> (rsv < 8)%N -> (op < 16)%N -> form_fits fm n -> (0 < n)%N -> length key = 4 ->
  segments cs (rfc_head fm fin rsv op true n ++ key ++ sent) ->
  ~ cut_at cs 1 -> (forall i, 0 < i < 4 -> ~ cut_at cs (head_len fm + i)) ->
  (fst (frame_parse m (map Data cs)) = Panic <-> (max_alloc m < n mod 2 ^ ptr_width m \/ max_alloc m < N.of_nat (length (got n sent)))%N).
Proof.
  intros m fm fin rsv op n key sent cs Hm Hrsv Hop Hfit Hn Hk Hcs H1 H4.
  destruct (C07_frame_exactly m fm fin rsv op n key sent cs Hm Hrsv Hop Hfit Hn Hk Hcs H1 H4) as (P & O & E).
  split; [|exact P]. intros Hp.
  destruct (N.lt_ge_cases (max_alloc m) (n mod 2 ^ ptr_width m)) as [Hb|Hb]; [now left|]. right.
  destruct (N.lt_ge_cases (max_alloc m) (N.of_nat (length (got n sent)))) as [Hc|Hc]; [assumption|]. exfalso.
  destruct (N.eq_dec (N.of_nat (length (got n sent))) (n mod 2 ^ ptr_width m)) as [Hd|Hd].
  - rewrite (O Hb Hd) in Hp. discriminate.
  - rewrite (E Hb Hc Hd) in Hp. discriminate.
Qed.
Print Assumptions C14_crash_exactly.
(** 14 bytes that crash a 32-bit server, and 19 that are delivered as "hello" although 2^32 + 5 bytes are declared. *)
Example C14_exactly_example :
  (forall i, 0 < i < 4 -> ~ cut_at [rfc_head Len64 true 0 1 true (2 ^ 31) ++ [x00; x00; x00; x00]] (head_len Len64 + i)) /\
  form_fits Len64 (2 ^ 31) /\ (max_alloc m32 < 2 ^ 31 mod 2 ^ ptr_width m32)%N /\ segments [rfc_head Len64 true 0 1 true (2 ^ 31) ++ [x00; x00; x00; x00]] (rfc_head Len64 true 0 1 true (2 ^ 31) ++ [x00; x00; x00; x00] ++ []) /\
  (N.of_nat (length (got (2 ^ 32 + 5) (bs "hello"))) = (2 ^ 32 + 5) mod 2 ^ ptr_width m32)%N.
Proof.
  split; [|split; [|split; [|split]]]; try reflexivity.
  - intros i Hi (c1 & c2 & E & L). destruct c1 as [|x [|y c1]]; cbn in E; [|injection E as <- _|injection E as _ E; destruct c1; discriminate].
    + unfold head_len in L. cbn in L. lia.
    + unfold head_len in L. cbn in L. lia.
  - constructor; [|reflexivity]. constructor; [discriminate|constructor].
Qed.

(** ** C15, exactly: the reserved bits make no difference whatsoever. *)
Theorem C15_reserved_bits_ignored : forall m a a' tl rest,
  (b2n a mod 16 = b2n a' mod 16)%N -> ((128 <= b2n a)%N <-> (128 <= b2n a')%N) ->
  msg_next m (Data (a :: tl) :: rest) = msg_next m (Data (a' :: tl) :: rest).
Proof.
  intros m a a' tl rest H1 H2. unfold msg_next.
  assert (exists r s, (frame_parse m (Data (a :: tl) :: rest) = (r, s) /\ frame_parse m (Data (a' :: tl) :: rest) = (r, s)) \/
    exists f f', r = Ok f /\ frame_parse m (Data (a :: tl) :: rest) = (Ok f, s) /\ frame_parse m (Data (a' :: tl) :: rest) = (Ok f', s) /\
       fin f = fin f' /\ op_code f = op_code f' /\ decoded f = decoded f') as (r & s & [[-> ->] | (f & f' & -> & -> & -> & E1 & E2 & E3)]).
  2: reflexivity.
  2: rewrite E1, E2, E3; reflexivity.
  destruct (bits_byte a) as (A1 & _ & _ & _ & A5 & _). destruct (bits_byte a') as (B1 & _ & _ & _ & B5 & _).
  assert (forall c, exists k s', frame_cap = S (S k) /\
    br_read 2 (BR [] frame_cap (Data (c :: tl) :: rest)) = (Ok (c :: firstn 1 tl), BR (firstn k (skipn 1 tl)) frame_cap (s' ++ rest)) /\
    s' = match skipn (S k) tl with [] => [] | d => [Data d] end) as R.
  { intros c. pose proof frame_cap_big as Hbig. unfold br_read, br_fill. cbn [br_buf br_cap br_in raw_read andb].
    destruct (Nat.leb_spec frame_cap 2) as [|_]; [lia|]. cbn [andb].
    destruct frame_cap as [|[|k]] eqn:Ek; try lia. exists k. exists (match skipn (S k) tl with [] => [] | d => [Data d] end). split; [reflexivity|]. split; [|reflexivity].
    cbn [raw_read]. destruct tl as [|b tl]; cbn [skipn firstn br_cap br_in app]; [now rewrite firstn_nil|].
    destruct (skipn k tl) eqn:Es; [|reflexivity]. cbn [app br_cap br_in]. do 2 f_equal.
    rewrite <- (firstn_skipn k tl) at 1. now rewrite Es, app_nil_r. }
  destruct (R a) as (k & s1 & Ek & Ra & Es1). destruct (R a') as (k' & s2 & Ek' & Ra' & Es2).
  assert (k' = k) as -> by congruence.
  subst s1 s2. clear R.
  unfold frame_parse. rewrite Ra, Ra'. destruct tl as [|b tl].
  { cbn [firstn]. do 2 eexists. left. split; reflexivity. }
  cbn [firstn]. set (b1 := BR _ _ _). clearbody b1.
  rewrite A1, A5, B1, B5, <- H1.
  assert ((128 <=? b2n a)%N = (128 <=? b2n a')%N) as -> by (destruct (N.leb_spec 128 (b2n a)), (N.leb_spec 128 (b2n a')); intuition lia).
  destruct (opcode_of _) as [op|]; [|do 2 eexists; left; split; reflexivity].
  destruct (read_length b b1) as [[n|e| |] b2]; try (do 2 eexists; left; split; reflexivity).
  destruct (_ && _)%bool; [do 2 eexists; left; split; reflexivity|].
  destruct (N.ltb 0 n).
  - destruct (read_payload _ _ _ _) as [[d|e| |] b3]; try (do 2 eexists; left; split; reflexivity).
    do 2 eexists. right. do 2 eexists. repeat split.
  - do 2 eexists. right. do 2 eexists. repeat split.
Qed.
Print Assumptions C15_reserved_bits_ignored.
Example C15_ignored_example : exists msg s', msg_next m32 (Data (n2b 241 :: tl (rfc_encode Len7 hello_frame)) :: []) = (Ok msg, s') /\
  msg_next m32 [Data (rfc_encode Len7 hello_frame)] = (Ok msg, s').
Proof. do 2 eexists. split; vm_compute; reflexivity. Qed.

(** ** C20, exactly: whatever a peer has sent, once it is gone without a close frame, [next] says ClientError for ever. *)
Theorem C20_never_told : forall m (xs : list (N * list piece)) n, machine_ok m -> Forall (fun x => delivered m (fst x) (snd x)) xs ->
  exists w, ws_run m (repeat ONext (length xs + n)) (ws_new (flat_map (fun x => pieces_stream (snd x)) xs) None) = Some w /\
    ws_st w = WsOpen /\ fst (ws_next m w) = Err ClientError.
Proof.
  intros m xs n Hm Hxs.
  assert (forall o, exists w, ws_run m (repeat ONext (length xs + n))
      (WS WsOpen (flat_map (fun x => pieces_stream (snd x)) xs) o None) = Some w /\ ws_st w = WsOpen /\ fst (ws_next m w) = Err ClientError) as K; [|apply (K [])].
  induction Hxs as [|[op ps] xs Hx Hxs IH]; intros o.
  - cbn [length flat_map Nat.add]. exists (WS WsOpen [] o None). rewrite ws_next_eof. repeat split.
    induction n as [|n IH]; [reflexivity|]. cbn [repeat ws_run ws_step]. rewrite ws_next_eof. exact IH.
  - cbn [length repeat flat_map Nat.add ws_run ws_step snd fst] in *.
    unfold ws_next at 1. cbn [ws_st ws_in ws_out ws_budget].
    rewrite (msg_next_delivered m op ps _ Hm Hx).
    destruct (msg_of_pieces (op, ps)) as [p|p|d|d]; try (apply IH).
    rewrite ws_write_none by reflexivity. apply IH.
Qed.
Print Assumptions C20_never_told.
