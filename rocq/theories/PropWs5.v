(** C127: what a WebSocket client can make the program hold and send. *)
From Verif Require Import Base Io IoProofs Utf8 WsModel WsSpec WsBridge WsProofs WsProofs2 WsProofs3 WsLemmas HandlesModel PropWs4.
From Coq Require Import Lia.
Ltac Zify.zify_post_hook ::= Z.div_mod_to_equations.

(* ------------------------------------------------------------------ *)
(** ** Bytes are only ever taken from the connection *)
Lemma br_read_avail n b : length (avail (snd (br_read n b))) <= length (avail b).
Proof. rewrite (br_read_bytes n b) at 1. rewrite app_length. lia. Qed.
Lemma read_exact_avail fuel n acc b : length (avail (snd (read_exact_loop fuel n acc b))) <= length (avail b).
Proof.
  revert n acc b. induction fuel as [|fuel IH]; intros n acc b; destruct n as [|n]; cbn [read_exact_loop snd]; auto.
  pose proof (br_read_avail (S n) b) as H. destruct (br_read (S n) b) as [[d|e| |] b1]; cbn [snd] in *; auto.
  - destruct d as [|y d]; cbn [snd]; [exact H|]. etransitivity; [apply IH|exact H].
  - destruct e; cbn [snd]; [|exact H]. etransitivity; [apply IH|exact H].
Qed.
Lemma take_avail fuel sz i limit acc b : length (avail (snd (take_to_end_loop fuel sz i limit acc b))) <= length (avail b).
Proof.
  revert i limit acc b. induction fuel as [|fuel IH]; intros i limit acc b; cbn [take_to_end_loop];
    destruct (N.eqb limit 0); cbn [snd]; auto.
  match goal with |- context [br_read ?r b] => pose proof (br_read_avail r b) as H; destruct (br_read r b) as [[d|e| |] b1] end;
    cbn [snd] in *; auto.
  - destruct d as [|y d]; cbn [snd]; [exact H|]. etransitivity; [apply IH|exact H].
  - destruct e; cbn [snd]; [|exact H]. etransitivity; [apply IH|exact H].
Qed.
Lemma read_length_avail c b : length (avail (snd (read_length c b))) <= length (avail b).
Proof.
  unfold read_length, read_exact. destruct (N.eqb _ 126); [|destruct (N.eqb _ 127); [|cbn [snd]; lia]].
  - pose proof (read_exact_avail (S (length (br_buf b) + stream_size (br_in b))) 2 [] b) as H.
    destruct (read_exact_loop _ 2 [] b) as [[]]; cbn [snd] in *; assumption.
  - pose proof (read_exact_avail (S (length (br_buf b) + stream_size (br_in b))) 8 [] b) as H.
    destruct (read_exact_loop _ 8 [] b) as [[]]; cbn [snd] in *; assumption.
Qed.
Lemma read_payload_avail m fin len b : length (avail (snd (read_payload m fin len b))) <= length (avail b).
Proof.
  unfold read_payload, take_to_end. pose proof (br_read_avail 4 b) as H. destruct (br_read 4 b) as [[d|e| |] b1]; cbn [snd] in *; auto.
  destruct d as [|k0 [|k1 [|k2 [|k3 [|k4 d]]]]]; cbn [snd] in *; auto.
  destruct (N.ltb _ _); cbn [snd]; auto.
  pose proof (take_avail (S (length (br_buf b1) + stream_size (br_in b1))) (read_sizes m) 0 len [] b1) as H2.
  destruct (take_to_end_loop _ _ 0 len [] b1) as [[enc|e| |] b2]; cbn [snd] in *; try lia.
  destruct (N.ltb _ _); cbn [snd]; [lia|]. destruct (negb _); cbn [snd]; [|lia]. destruct (_ && _)%bool; cbn [snd]; lia.
Qed.
Lemma in_avail b : length (bytes_of (br_in b)) <= length (avail b).
Proof. unfold avail. rewrite app_length. lia. Qed.
Lemma frame_parse_avail m s : length (bytes_of (snd (frame_parse m s))) <= length (bytes_of s).
Proof.
  unfold frame_parse. pose proof (br_read_avail 2 (BR [] frame_cap s)) as H1.
  assert (avail (BR [] frame_cap s) = bytes_of s) as E by reflexivity. rewrite E in H1. clear E.
  destruct (br_read 2 (BR [] frame_cap s)) as [[d|e| |] b1]; cbn [snd] in *;
    try (pose proof (in_avail b1); lia).
  destruct d as [|a [|b [|c d]]]; cbn [snd]; try (pose proof (in_avail b1); lia).
  destruct (opcode_of _); cbn [snd]; [|pose proof (in_avail b1); lia].
  pose proof (read_length_avail b b1) as H2. destruct (read_length b b1) as [[len|e| |] b2]; cbn [snd] in *;
    try (pose proof (in_avail b2); lia).
  destruct (_ && _)%bool; cbn [snd]; [pose proof (in_avail b2); lia|].
  destruct (N.ltb 0 len); cbn [snd]; [|pose proof (in_avail b2); lia].
  pose proof (read_payload_avail m (bit_set a 128) len b2) as H3.
  destruct (read_payload m (bit_set a 128) len b2) as [[d|e| |] b3]; cbn [snd] in *; pose proof (in_avail b3); lia.
Qed.
Lemma msg_loop_avail m fuel op payload s : length (bytes_of (snd (msg_loop m fuel op payload s))) <= length (bytes_of s).
Proof.
  revert payload s. induction fuel as [|fuel IH]; intros payload s; cbn [msg_loop snd]; [lia|].
  pose proof (frame_parse_avail m s) as H. destruct (frame_parse m s) as [[f|e| |] s1]; cbn [snd] in *; auto.
  destruct (op_code f); cbn [snd]; auto. destruct (N.ltb _ _); cbn [snd]; auto. destruct (fin f); cbn [snd]; auto.
  etransitivity; [apply IH|exact H].
Qed.
Lemma msg_next_avail m s : length (bytes_of (snd (msg_next m s))) <= length (bytes_of s).
Proof.
  unfold msg_next. pose proof (frame_parse_avail m s) as H. destruct (frame_parse m s) as [[f|e| |] s1]; cbn [snd] in *; auto.
  pose proof (fun op => msg_loop_avail m (S (stream_size s1)) op (decoded f) s1) as L.
  destruct (op_code f) eqn:Eo; cbn [snd]; auto; destruct (fin f); cbn [snd]; auto; etransitivity; try apply L; auto.
Qed.

(* ------------------------------------------------------------------ *)
(** ** What a message has cost the client *)
(** Specification. The least a client can spend on a message of [n] bytes (RFC 6455 5.2): the first two bytes, the longer
    forms of the length, the masking key (an empty frame is read without one), the payload. *)
Definition cost (n : nat) : nat := n + (if n =? 0 then 2 else if (N.of_nat n <? 126)%N then 6 else if (N.of_nat n <? 65536)%N then 8 else 14).

Lemma frame_cost m s f s' : machine_ok m -> frame_parse m s = (Ok f, s') ->
  length (decoded f) + (if length (decoded f) =? 0 then 2 else if (N.of_nat (length (decoded f)) <? 126)%N then 6
    else if (N.of_nat (length (decoded f)) <? 65536)%N then 8 else 14) + length (bytes_of s') <= length (bytes_of s).
Proof.
  intros Hm E. destruct (frame_parse_any m s _ s' Hm E) as (_ & _ & Hok & _).
  destruct (Hok f eq_refl) as (_ & a & b & ext & key & enc & lost & Hby & Hx & _ & _ & _ & _ & _ & Hd & Hl & Hk & _).
  assert (length (decoded f) = length enc) as -> by (rewrite Hd; apply xor_key_length).
  rewrite Hby. cbn [length]. rewrite !app_length, Hx.
  destruct (Nat.eqb_spec (length enc) 0) as [H0|H0]; [lia|].
  assert (N.of_nat (length enc) <= declared_len b ext)%N as Hle by (rewrite Hl; apply N.mod_le; apply N.pow_nonzero; discriminate).
  destruct Hk as [[Hz _]|(_ & _ & Hk)]; [lia|]. rewrite Hk.
  pose proof (net_value_lt ext) as Hn. rewrite Hx in Hn. unfold declared_len in Hle. unfold ext_len in *.
  destruct (N.ltb_spec (b2n b mod 128) 126) as [H1|H1].
  { assert (N.of_nat (length enc) <? 126 = true)%N as -> by (apply N.ltb_lt; lia). lia. }
  destruct (N.eqb_spec (b2n b mod 128) 126) as [H2|H2].
  { change (256 ^ N.of_nat 2)%N with 65536%N in Hn.
    assert (N.of_nat (length enc) <? 65536 = true)%N as -> by (apply N.ltb_lt; lia). destruct (_ <? 126)%N; lia. }
  destruct (N.eqb_spec (b2n b mod 128) 127) as [H3|H3]; [|pose proof (b2n_lt b); lia].
  destruct (_ <? 126)%N; [lia|]. destruct (_ <? 65536)%N; lia.
Qed.

Lemma chain_cost m s f fs s' : machine_ok m -> frame_chain m s (f :: fs) s' ->
  cost (total_len (f :: fs)) + length (bytes_of s') <= length (bytes_of s).
Proof.
  intros Hm H. remember (f :: fs) as l eqn:El. revert f fs El. induction H as [s|s g s1 gs s2 Hp Hc IH]; intros f fs El; [discriminate|].
  pose proof (frame_cost m s g s1 Hm Hp) as H1.
  assert (total_len (g :: gs) = length (decoded g) + total_len gs) as -> by (unfold total_len; cbn [map concat]; apply app_length).
  set (a := length (decoded g)) in *. destruct gs as [|g2 gs].
  - inversion Hc; subst. change (total_len []) with 0. rewrite Nat.add_0_r. unfold cost.
    destruct (Nat.eqb_spec a 0); [lia|]. destruct (N.ltb_spec (N.of_nat a) 126); [lia|]. destruct (N.ltb_spec (N.of_nat a) 65536); lia.
  - specialize (IH g2 gs eq_refl). set (b := total_len (g2 :: gs)) in *. unfold cost in *.
    destruct (Nat.eqb_spec a 0); [destruct (Nat.eqb_spec b 0); destruct (Nat.eqb_spec (a + b) 0)|
      destruct (Nat.eqb_spec b 0); destruct (Nat.eqb_spec (a + b) 0)]; try lia;
    destruct (N.ltb_spec (N.of_nat a) 126); destruct (N.ltb_spec (N.of_nat b) 126); destruct (N.ltb_spec (N.of_nat (a + b)) 126); try lia;
    destruct (N.ltb_spec (N.of_nat a) 65536); destruct (N.ltb_spec (N.of_nat b) 65536); destruct (N.ltb_spec (N.of_nat (a + b)) 65536); lia.
Qed.

Lemma message_cost m s msg s' : machine_ok m -> msg_next m s = (Ok msg, s') ->
  cost (length (message_payload msg)) + length (bytes_of s') <= length (bytes_of s).
Proof.
  intros Hm E. destruct (msg_next_any m s _ s' Hm E) as (_ & _ & Hok & _).
  destruct (Hok msg eq_refl) as (_ & f & fs & Hc & _ & Hb & _).
  pose proof (chain_cost m s f fs s' Hm Hc) as H. unfold total_len in H.
  set (d := concat (map decoded (f :: fs))) in *.
  assert (length (message_payload msg) = length d) as ->; [|exact H].
  destruct (build_message_inv _ _ _ Hb) as [[_ ->]|[(_ & -> & _)|[[_ ->]|[_ ->]]]]; cbn [message_payload]; try reflexivity;
    destruct d; reflexivity.
Qed.
Lemma close_cost m s s' : machine_ok m -> msg_next m s = (Err ClientSentCloseFrame, s') ->
  2 + length (bytes_of s') <= length (bytes_of s).
Proof.
  intros Hm E. destruct (msg_next_any m s _ s' Hm E) as (_ & _ & _ & Hcl & _).
  destruct (Hcl eq_refl) as (_ & fs & l & Hc & _).
  assert (exists f gs, fs ++ [l] = f :: gs) as (f & gs & Ef) by (destruct fs; do 2 eexists; reflexivity). rewrite Ef in Hc.
  pose proof (chain_cost m s f gs s' Hm Hc) as H. assert (2 <= cost (total_len (f :: gs))) as H2; [|lia].
  unfold cost. destruct (_ =? 0); [lia|]. destruct (_ <? 126)%N; [lia|]. destruct (_ <? 65536)%N; lia.
Qed.

(** Specification. What the messages handed to the program must have cost. *)
Definition paid (r : returned) : nat := match r with Got msg => cost (length (message_payload msg)) | _ => 0 end.
Definition total_paid (rs : list returned) : nat := fold_right (fun r n => paid r + n) 0 rs.

(** Specification. The size of a message on the way out: unmasked, the length in puck's shortest form (65535 takes the
    longest one: C02). *)
Definition on_wire (n : nat) : nat := n + (if (N.of_nat n <? 126)%N then 2 else if (N.of_nat n <? 65535)%N then 4 else 10).
Definition program_sends (ops : list ws_op) : nat :=
  fold_right (fun o n => match o with OSend msg => on_wire (length (message_payload msg)) | ONext => 0 end + n) 0 ops.
(** Pings of exactly 65535 bytes: their pongs may be two bytes longer than what they cost. *)
Definition odd_pings (rs : list returned) : nat :=
  length (filter (fun r => match r with Got (Ping (Some d)) => N.of_nat (length d) =? 65535 | _ => false end)%N rs).

Lemma wire_length f : length (frame_wire f) = on_wire (length (decoded f)).
Proof.
  unfold frame_wire, frame_format, on_wire. set (n := length (decoded f)).
  destruct (N.ltb_spec (N.of_nat n) 126) as [H|H].
  - assert ((126 <=? N.of_nat n)%N = false) as -> by lia. cbn [andb concat app length]. fold n. lia.
  - assert ((126 <=? N.of_nat n)%N = true) as -> by lia. cbn [andb]. destruct (_ <? 65535)%N; cbn [concat app length write_be]; fold n; lia.
Qed.
Lemma write_length f w : length (ws_out (snd (ws_write f w))) <= length (ws_out w) + on_wire (length (decoded f)).
Proof.
  unfold ws_write. destruct (ws_budget w) as [n|].
  - rewrite send_frame_some. cbn [snd ws_out]. rewrite app_length, firstn_length, wire_length. lia.
  - rewrite send_frame_none. cbn [snd ws_out]. rewrite app_length, wire_length. lia.
Qed.

Lemma call_cost m o w r w' : machine_ok m -> call m o w = Some (r, w') ->
  paid r + length (bytes_of (ws_in w')) <= length (bytes_of (ws_in w)) /\
  length (ws_out w') + length (bytes_of (ws_in w')) <=
    length (ws_out w) + length (bytes_of (ws_in w)) + program_sends [o] + 2 * odd_pings [r].
Proof.
  intros Hm. destruct o as [|msg]; unfold call.
  - unfold ws_next. destruct (ws_st w) eqn:Est; [|intros [= <- <-]; cbn [paid]; lia].
    pose proof (msg_next_avail m (ws_in w)) as Hav.
    destruct (msg_next m (ws_in w)) as [rm s'] eqn:E. cbn [snd] in Hav. destruct rm as [msg|e| |]; try discriminate.
    + pose proof (message_cost m _ _ _ Hm E) as Hc. destruct msg as [p|p|t|d]; try (intros [= <- <-]; cbn [paid ws_in ws_out]; lia).
      set (f := Frame true false false false OpPong (match p with Some d => d | None => [] end)).
      pose proof (write_length f (WS WsOpen s' (ws_out w) (ws_budget w))) as Hw.
      pose proof (ws_write_st f (WS WsOpen s' (ws_out w) (ws_budget w))) as [_ Hin].
      destruct (ws_write f (WS WsOpen s' (ws_out w) (ws_budget w))) as [[u|e| |] w2]; try discriminate.
      intros [= <- <-]. cbn [snd ws_in ws_out] in *. rewrite Hin. split; [exact Hc|].
      assert (decoded f = message_payload (Ping p)) as Ed by (destruct p; reflexivity). rewrite Ed in Hw.
      set (n := length (message_payload (Ping p))) in *.
      assert (on_wire n <= cost n + 2 * odd_pings [Got (Ping p)]) as K.
      { unfold on_wire, cost, odd_pings. cbn [filter length]. subst n. destruct p as [d|]; cbn [message_payload]; [|vm_compute; lia].
        destruct (N.eqb_spec (N.of_nat (length d)) 65535) as [H5|H5]; cbn [length].
        - assert (length d =? 0 = false) as -> by (apply Nat.eqb_neq; lia). rewrite H5.
          change (65535 <? 126)%N with false. change (65535 <? 65535)%N with false. change (65535 <? 65536)%N with true. cbn iota. lia.
        - destruct (Nat.eqb_spec (length d) 0); [assert (N.of_nat (length d) <? 126 = true)%N as -> by (apply N.ltb_lt; lia); lia|].
          destruct (N.ltb_spec (N.of_nat (length d)) 126); [lia|]. destruct (N.ltb_spec (N.of_nat (length d)) 65535); destruct (N.ltb_spec (N.of_nat (length d)) 65536); lia. }
      lia.
    + destruct e; [intros [= <- <-]; cbn [paid ws_in ws_out]; lia|].
      pose proof (close_cost m _ _ Hm E) as Hc. unfold send_close.
      pose proof (write_length close_frame (WS WsClosed s' (ws_out w) (ws_budget w))) as Hw.
      pose proof (ws_write_st close_frame (WS WsClosed s' (ws_out w) (ws_budget w))) as [_ Hin].
      destruct (ws_write close_frame (WS WsClosed s' (ws_out w) (ws_budget w))) as [[u|e| |] w2]; try discriminate.
      intros [= <- <-]. cbn [snd ws_in ws_out paid] in *. rewrite Hin. change (on_wire (length (decoded close_frame))) with 2 in Hw. lia.
  - unfold ws_send. pose proof (write_length (frame_of_message msg) w) as Hw. pose proof (ws_write_st (frame_of_message msg) w) as [_ Hin].
    assert (decoded (frame_of_message msg) = message_payload msg) as Ed by (destruct msg as [[|]|[|]|t|d]; reflexivity). rewrite Ed in Hw.
    destruct (ws_write (frame_of_message msg) w) as [[u|e| |] w2]; try discriminate; intros [= <- <-]; cbn [snd paid program_sends fold_right] in *; rewrite Hin; lia.
Qed.

Lemma calls_cost m ops : machine_ok m -> forall w rs w', calls m ops w = Some (rs, w') ->
  total_paid rs + length (bytes_of (ws_in w')) <= length (bytes_of (ws_in w)) /\
  length (ws_out w') + length (bytes_of (ws_in w')) <=
    length (ws_out w) + length (bytes_of (ws_in w)) + program_sends ops + 2 * odd_pings rs.
Proof.
  intros Hm. induction ops as [|o ops IH]; intros w rs w' E; cbn [calls] in E.
  - injection E as <- <-. cbn [total_paid fold_right]. lia.
  - destruct (call m o w) as [[r w1]|] eqn:Ec; [|discriminate]. destruct (calls m ops w1) as [[rs1 w2]|] eqn:Er; [|discriminate].
    injection E as <- <-. destruct (call_cost m o w r w1 Hm Ec) as [C1 C2]. destruct (IH w1 rs1 w2 Er) as [I1 I2].
    assert (odd_pings (r :: rs1) = odd_pings [r] + odd_pings rs1) as ->.
    { unfold odd_pings. cbn [filter]. destruct (match r with Got (Ping (Some d)) => _ | _ => _ end); reflexivity. }
    cbn [total_paid program_sends fold_right] in *. fold (total_paid rs1) (program_sends ops) in *. lia.
Qed.

(** However a client cuts, fragments and interleaves what it sends, and whatever the program does in between: the
    messages handed to the program so far were paid for, each with at least its smallest encoding, out of the bytes the
    client has sent. *)
Theorem C127_paid_for : forall m s budget ops rs w, machine_ok m -> calls m ops (ws_new s budget) = Some (rs, w) ->
  total_paid rs + length (bytes_of (ws_in w)) <= length (bytes_of s).
Proof. intros m s budget ops rs w Hm E. exact (proj1 (calls_cost m ops Hm _ rs w E)). Qed.
Print Assumptions C127_paid_for.

(** What is written on a connection is at most what the program sent and as many bytes as the client has sent, with two
    bytes more for each ping of exactly 65535 bytes: pongs and the close frame never amplify. *)
Theorem C127_no_amplification : forall m s budget ops rs w, machine_ok m -> calls m ops (ws_new s budget) = Some (rs, w) ->
  length (ws_out w) + length (bytes_of (ws_in w)) <= length (bytes_of s) + program_sends ops + 2 * odd_pings rs.
Proof. intros m s budget ops rs w Hm E. pose proof (proj2 (calls_cost m ops Hm _ rs w E)) as H. cbn [ws_new ws_out ws_in length] in H. lia. Qed.
Print Assumptions C127_no_amplification.

(** The same when the program makes copies of the WebSocket and uses and closes them in any order: beyond the messages
    sent and two bytes for each [close], at most 65545 bytes are written for every 65543 received. *)
Definition copies_send (cs : list hcall) : nat :=
  fold_right (fun c n => match c with CSend _ msg => on_wire (length (message_payload msg)) | CClose _ => 2 | _ => 0 end + n) 0 cs.

Lemma handle_call_rate m c hs hs' : machine_ok m -> h_call m c hs = Some hs' ->
  (65543 * N.of_nat (length (ws_out (hd_sock hs'))) + 65545 * N.of_nat (length (bytes_of (ws_in (hd_sock hs')))) <=
   65543 * N.of_nat (length (ws_out (hd_sock hs))) + 65545 * N.of_nat (length (bytes_of (ws_in (hd_sock hs)))) +
   65543 * N.of_nat (copies_send [c]))%N.
Proof.
  intros Hm. unfold h_call, handle_ws.
  destruct c as [i|i msg|i|i]; (destruct (nth i (hd_states hs) None) as [st|] eqn:Est; [|discriminate]).
  - destruct (ws_next m (ws_with_state st (hd_sock hs))) as [r w1] eqn:E. intros H.
    assert (exists ret, call m ONext (ws_with_state st (hd_sock hs)) = Some (ret, w1) /\ hs' = Handles (set_state i (Some (ws_st w1)) (hd_states hs)) w1) as (ret & Ec & ->).
    { unfold call. rewrite E. destruct r; try discriminate; injection H as <-; eexists; split; reflexivity. }
    destruct (call_cost m ONext _ ret w1 Hm Ec) as [C1 C2]. cbn [hd_sock ws_with_state ws_in ws_out program_sends fold_right copies_send] in *.
    assert (odd_pings [ret] = 0 \/ odd_pings [ret] = 1 /\ N.of_nat (paid ret) = 65543%N) as K.
    { unfold odd_pings. destruct ret as [[[d|]|p|t|d]|e| |]; cbn [filter length]; auto.
      destruct (N.eqb_spec (N.of_nat (length d)) 65535) as [H5|H5]; [|now left]. right. split; [reflexivity|]. cbn [paid message_payload].
      unfold cost. rewrite H5. destruct (Nat.eqb_spec (length d) 0); [lia|]. change (65535 <? 126)%N with false. change (65535 <? 65536)%N with true.
      cbn iota. lia. }
    destruct K as [K|[K1 K2]]; lia.
  - destruct (ws_send msg (ws_with_state st (hd_sock hs))) as [r w1] eqn:E. intros H.
    assert (exists ret, call m (OSend msg) (ws_with_state st (hd_sock hs)) = Some (ret, w1) /\ hs' = Handles (set_state i (Some (ws_st w1)) (hd_states hs)) w1) as (ret & Ec & ->).
    { unfold call. rewrite E. destruct r; try discriminate; injection H as <-; eexists; split; reflexivity. }
    destruct (call_cost m (OSend msg) _ ret w1 Hm Ec) as [C1 C2]. cbn [hd_sock ws_with_state ws_in ws_out program_sends fold_right copies_send] in *.
    assert (odd_pings [ret] = 0) as Hz.
    { unfold call in Ec. rewrite E in Ec. destruct r; try discriminate; injection Ec as <-; reflexivity. }
    lia.
  - unfold ws_close. cbn [ws_with_state ws_st]. destruct st; [|intros [= <-]; cbn [hd_sock ws_with_state ws_in ws_out]; lia].
    unfold send_close. pose proof (write_length close_frame (ws_with_state WsOpen (hd_sock hs))) as Hw.
    pose proof (ws_write_st close_frame (ws_with_state WsOpen (hd_sock hs))) as [_ Hin].
    destruct (ws_write close_frame (ws_with_state WsOpen (hd_sock hs))) as [[u|e| |] w2]; try discriminate.
    intros [= <-]. cbn [snd hd_sock ws_with_state ws_in ws_out copies_send fold_right] in *. rewrite Hin. change (on_wire (length (decoded close_frame))) with 2 in Hw. lia.
  - intros [= <-]. cbn [hd_sock]. lia.
Qed.
Theorem C127_copies : forall m s budget cs hs, machine_ok m -> h_run m cs (first_handle s budget) = Some hs ->
  (65543 * N.of_nat (length (ws_out (hd_sock hs))) <= 65545 * N.of_nat (length (bytes_of s)) + 65543 * N.of_nat (copies_send cs))%N.
Proof.
  intros m s budget cs hs Hm H.
  assert (forall cs hs0, h_run m cs hs0 = Some hs ->
    (65543 * N.of_nat (length (ws_out (hd_sock hs))) + 65545 * N.of_nat (length (bytes_of (ws_in (hd_sock hs)))) <=
     65543 * N.of_nat (length (ws_out (hd_sock hs0))) + 65545 * N.of_nat (length (bytes_of (ws_in (hd_sock hs0)))) + 65543 * N.of_nat (copies_send cs))%N) as K.
  { clear cs H. induction cs as [|c cs IH]; intros hs0 H; cbn [h_run] in H; [injection H as ->; lia|].
    destruct (h_call m c hs0) as [hs1|] eqn:E; [|discriminate]. pose proof (handle_call_rate m c hs0 hs1 Hm E) as H1. specialize (IH hs1 H).
    assert (copies_send (c :: cs) = copies_send [c] + copies_send cs) as -> by (unfold copies_send; cbn [fold_right]; lia). lia. }
  specialize (K cs _ H). cbn [first_handle hd_sock ws_new ws_in ws_out length] in K. lia.
Qed.
Print Assumptions C127_copies.
Example C127_copies_example : exists hs, h_run m32 [CCopy 0; CNext 0; CNext 1; CClose 0] (first_handle [Data (rfc_encode Len7 (client true 0 9 (bs "hey"))); Data (rfc_encode Len7 (client true 0 9 (bs "p")))] None) = Some hs /\
  length (ws_out (hd_sock hs)) = 10.
Proof. eexists. split; vm_compute; reflexivity. Qed.

(** There is no other bound: whatever length the allocator can still serve is read, collected and handed over, in one
    frame, at the cost of its smallest encoding. *)
Definition big_frame (op : N) (n : nat) : rfc_frame := client true 0 op (repeat x61 n).
Lemma big_delivered m op n : machine_ok m -> (op = 2 \/ op = 9)%N -> 0 < n -> (N.of_nat n <= max_alloc m)%N ->
  delivered m op [Piece (minimal_form (N.of_nat n)) (big_frame op n) [rfc_encode (minimal_form (N.of_nat n)) (big_frame op n)]].
Proof.
  intros Hm Hop H0 Hn. pose proof (machine_small m _ Hm Hn) as Hs.
  assert (length (repeat x61 n) = n) as El by apply repeat_length.
  split; [|split; [|split; [|split]]].
  - constructor; [|constructor]. split.
    + split; [|split; [reflexivity|]].
      * unfold rfc_wf, big_frame, client. cbn [pc_form pc_frame rf_rsv rf_op rf_payload rf_key]. rewrite El. split; [lia|]. split; [lia|]. split; [|reflexivity].
        unfold minimal_form. destruct (N.ltb_spec (N.of_nat n) 126); [exact H|]. destruct (N.ltb_spec (N.of_nat n) (2 ^ 16)); [exact H1|exact Hs].
      * unfold big_frame, client. cbn [pc_frame rf_payload]. rewrite El. exact Hn.
    + split.
      * split; [constructor; [discriminate|constructor]|]. cbn [concat]. apply app_nil_r.
      * unfold big_frame, client. cbn [pc_frame pc_segs pc_form rf_payload]. destruct (repeat x61 n) as [|y d] eqn:Er; [reflexivity|].
        rewrite <- Er in *. split; [|intros i Hi]; intros (c1 & c2 & Ec & Hl); destruct c1 as [|c1 c1s]; cbn in Hl; try lia;
          injection Ec as <- Ec; symmetry in Ec; apply app_eq_nil in Ec as [-> ->]; cbn [concat] in Hl; rewrite app_nil_r in Hl.
        -- cbn in Hl. discriminate.
        -- unfold rfc_encode, rfc_header, rfc_head, head_len in Hl. cbn [rf_key rf_payload rf_fin rf_rsv rf_op key4] in Hl.
           rewrite !app_length, xor_key_length, El in Hl. cbn [length] in Hl. unfold form_ext, form_len in Hl.
           destruct (minimal_form (N.of_nat n)); cbn [length net_bytes] in Hl; change (length key4) with 4 in Hl; lia.
  - left. exists (big_frame op n). repeat split.
  - destruct Hop as [->| ->]; unfold deliverable; auto.
  - unfold payload_fits, payload_of. cbn [map concat pc_frame big_frame client rf_payload]. rewrite app_nil_r, El. exact Hn.
  - intros ->. destruct Hop; discriminate.
Qed.
Theorem C127_no_limit_refuted : forall m n, machine_ok m -> 0 < n -> (N.of_nat n <= max_alloc m)%N ->
  exists s w d, length (bytes_of s) = cost n /\ ws_next m (ws_new s None) = (Ok (Binary d), w) /\ length d = n.
Proof.
  intros m n Hm H0 Hn. pose proof (msg_next_delivered m 2 _ [] Hm (big_delivered m 2 n Hm (or_introl eq_refl) H0 Hn)) as E. rewrite app_nil_r in E.
  match type of E with msg_next m ?s0 = _ => set (s := s0) in * end.
  exists s, (WS WsOpen [] [] None), (repeat x61 n). split; [|split; [|apply repeat_length]].
  - subst s. unfold pieces_stream. cbn [map concat pc_segs]. rewrite bytes_of_chunks. cbn [app concat]. rewrite app_nil_r.
    unfold rfc_encode, rfc_header, rfc_head. cbn [big_frame client rf_key rf_payload key4]. rewrite !app_length, xor_key_length, repeat_length.
    unfold cost, form_ext, minimal_form. destruct (Nat.eqb_spec n 0); [lia|]. cbn [length].
    change (length key4) with 4. destruct (N.ltb_spec (N.of_nat n) 126); [cbn [length]; lia|]. change (2 ^ 16)%N with 65536%N.
    destruct (N.ltb_spec (N.of_nat n) 65536); cbn [length net_bytes]; lia.
  - unfold ws_next, ws_new. cbn [ws_st ws_in ws_out ws_budget]. rewrite E. unfold msg_of_pieces. cbn [fst snd].
    change (message_for 2 ?d) with (Binary d). unfold payload_of. cbn [map concat pc_frame big_frame client rf_payload]. rewrite app_nil_r. reflexivity.
Qed.
Print Assumptions C127_no_limit_refuted.

(** The two bytes are real: a ping of 65535 bytes costs 65543 bytes and is answered with 65545. *)
Theorem C127_odd_ping_refuted : forall m, machine_ok m -> (65535 <= max_alloc m)%N ->
  exists s w msg, ws_next m (ws_new s None) = (Ok msg, w) /\
    N.of_nat (length (bytes_of s)) = 65543%N /\ N.of_nat (length (ws_out w)) = 65545%N.
Proof.
  intros m Hm Ha. set (n := N.to_nat 65535). assert (N.of_nat n = 65535)%N as En by apply N2Nat.id.
  assert (0 < n) as H0 by lia. assert (N.of_nat n <= max_alloc m)%N as Hn by lia.
  pose proof (msg_next_delivered m 9 _ [] Hm (big_delivered m 9 n Hm (or_intror eq_refl) H0 Hn)) as E. rewrite app_nil_r in E.
  match type of E with msg_next m ?s0 = _ => set (s := s0) in * end.
  assert (msg_of_pieces (9%N, [Piece (minimal_form (N.of_nat n)) (big_frame 9 n) [rfc_encode (minimal_form (N.of_nat n)) (big_frame 9 n)]]) =
          Ping (Some (repeat x61 n))) as Ep.
  { unfold msg_of_pieces, payload_of. cbn [fst snd map concat pc_frame big_frame client rf_payload]. rewrite app_nil_r.
    change (message_for 9 ?d) with (Ping (optional d)). pose proof (repeat_length x61 n) as L. clearbody n. destruct n as [|n]; [lia|]. reflexivity. }
  rewrite Ep in E. exists s. do 2 eexists. split; [unfold ws_next, ws_new; cbn [ws_st ws_in ws_out ws_budget]; rewrite E; rewrite ws_write_none by reflexivity; reflexivity|].
  split.
  - subst s. unfold pieces_stream. cbn [map concat pc_segs]. rewrite bytes_of_chunks. cbn [app concat]. rewrite app_nil_r.
    unfold rfc_encode, rfc_header, rfc_head. cbn [big_frame client rf_key rf_payload key4]. rewrite !app_length, xor_key_length, repeat_length.
    rewrite En. unfold form_ext, minimal_form. cbn [length]. change (length key4) with 4. rewrite !Nat2N.inj_add, En. reflexivity.
  - cbn [ws_out app ws_new]. rewrite wire_length. cbn [decoded]. rewrite repeat_length. unfold on_wire. rewrite En.
    change (65535 <? 126)%N with false. change (65535 <? 65535)%N with false. cbn iota. rewrite Nat2N.inj_add, En. reflexivity.
Qed.
Print Assumptions C127_odd_ping_refuted.

(** Not vacuous: a text in two frames, a ping and a close frame, answered; the payloads and the answers were paid for. *)
Example C127_example : exists s rs w, machine_ok m32 /\ calls m32 [ONext; OSend (Text (bs "a")); ONext; ONext] (ws_new s None) = Some (rs, w) /\
  rs = [Got (Text (bs "hiyou")); Done; Got (Ping (Some (bs "p"))); Failed ConnectionClosed] /\
  length (bytes_of s) = 30 /\ total_paid rs = 18 /\ length (ws_out w) = 8 /\ odd_pings rs = 0.
Proof.
  exists (pieces_stream [whole (client false 0 1 (bs "hi")); whole (client true 0 0 (bs "you")); whole (client true 0 9 (bs "p")); whole (client true 0 8 [])]).
  do 2 eexists. split; [apply m32_ok|]. split; [vm_compute; reflexivity|]. repeat split; vm_compute; reflexivity.
Qed.
Example C127_big_example : (0 < 100000 /\ N.of_nat 100000 <= max_alloc m64)%N /\ machine_ok m64.
Proof. split; [|apply m64_ok]. vm_compute. split; [reflexivity|discriminate]. Qed.
