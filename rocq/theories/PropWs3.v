(** C102: interrupted reads on a WebSocket. *)
From Verif Require Import Base Io IoProofs Utf8 WsModel WsSpec WsBridge WsProofs WsProofs2 WsProofs3 WsInterrupt WsLemmas.
From Coq Require Import Lia.
Ltac Zify.zify_post_hook ::= Z.div_mod_to_equations.

(** Interruptions inside a frame are retried, wherever they come, if the frame's first byte has arrived and the masking
    key is in the same segment as the end of the length: the frame is delivered and what follows it is still there.
    (Segments and boundaries are those of the transport without the interruptions.) *)
Theorem C102_inside_a_frame_partial : forall m fm f cs first later rest,
  machine_ok m -> client_frame m fm f -> rf_payload f <> [] -> segments cs (rfc_encode fm f) ->
  ~ cut_at cs 1 -> (forall i, i < 4 -> ~ cut_at cs (head_len fm + i)) ->
  filter (fun e => match e with Fail EInterrupted => false | _ => true end) (Data first :: later) = map Data cs ++ rest ->
  exists after, frame_parse m (Data first :: later) = (Ok (frame_view f), after) /\
    filter (fun e => match e with Fail EInterrupted => false | _ => true end) after = rest.
Proof. intros m fm f cs first later rest Hm Hc Hp Hs H1 H2 H3. exact (parse_interrupted m fm f cs first later rest Hm Hc Hp Hs H1 H2 H3). Qed.
Print Assumptions C102_inside_a_frame_partial.

(** An interruption between frames is reported as an error of the client; nothing is lost, the socket stays open and
    the next call goes on as if it had not been. *)
Theorem C102_between_frames : forall m s out budget,
  ws_next m (WS WsOpen (Fail EInterrupted :: s) out budget) = (Err ClientError, WS WsOpen s out budget).
Proof.
  intros m s out budget. unfold ws_next, msg_next, frame_parse. cbn [ws_st ws_in ws_out ws_budget].
  assert (br_read 2 (BR [] frame_cap (Fail EInterrupted :: s)) = (Err EInterrupted, BR [] frame_cap s)) as ->; [|reflexivity].
  unfold br_read, br_fill. cbn [br_buf br_cap br_in raw_read andb]. destruct (Nat.leb frame_cap 2); reflexivity.
Qed.
Print Assumptions C102_between_frames.

(** An interruption exactly between the header and the masking key loses the header: the connection is out of step. *)
Theorem C102_before_the_key_refuted : forall m fm fin rsv op n cs rest,
  (rsv < 8)%N -> (op < 16)%N -> form_fits fm n -> (0 < n)%N -> segments cs (rfc_head fm fin rsv op true n) -> ~ cut_at cs 1 ->
  frame_parse m (map Data cs ++ Fail EInterrupted :: rest) = (Err PfIoError, rest).
Proof.
  intros m fm fin rsv op n cs rest Hr Ho Hf Hn Hs H1. rewrite <- (app_nil_r (rfc_head _ _ _ _ _ _)) in Hs.
  destruct (parse_head m fm fin rsv op true n [] cs (Fail EInterrupted :: rest) Hr Ho Hf Hs H1) as (buf & cs' & A & B & C & ->).
  apply app_eq_nil in B as [-> B]. assert (cs' = []) as ->. { destruct A as [|c cs' Hc _]; [reflexivity|]. cbn [concat] in B. apply app_eq_nil in B as [-> _]. congruence. }
  unfold after_head. assert (N.ltb 0 n = true) as -> by lia. cbn [andb negb map app]. unfold read_payload.
  assert (br_read 4 (BR [] frame_cap (Fail EInterrupted :: rest)) = (Err EInterrupted, BR [] frame_cap rest)) as ->; [|reflexivity].
  unfold br_read, br_fill. cbn [br_buf br_cap br_in raw_read andb]. destruct (Nat.leb frame_cap 4); reflexivity.
Qed.
Print Assumptions C102_before_the_key_refuted.

(** Not vacuous: "hello", interrupted three times inside the payload; a frame of 200 bytes, interrupted in its length. *)
Example C102_example : exists first x y,
  first ++ x ++ y = rfc_encode Len7 hello_frame /\ x <> [] /\ y <> [] /\
  segments [first; x; y] (rfc_encode Len7 hello_frame) /\ ~ cut_at [first; x; y] 1 /\ (forall i, i < 4 -> ~ cut_at [first; x; y] (head_len Len7 + i)) /\
  frame_parse m32 [Data first; Fail EInterrupted; Data x; Fail EInterrupted; Fail EInterrupted; Data y; Fail EInterrupted] = (Ok (frame_view hello_frame), [Fail EInterrupted]) /\
  frame_parse m32 [Data (rfc_head Len7 true 0 1 true 5); Fail EInterrupted; Data (skipn 2 (rfc_encode Len7 hello_frame))] = (Err PfIoError, [Data (skipn 2 (rfc_encode Len7 hello_frame))]).
Proof.
  exists (firstn 7 (rfc_encode Len7 hello_frame)), (firstn 2 (skipn 7 (rfc_encode Len7 hello_frame))), (skipn 9 (rfc_encode Len7 hello_frame)).
  assert (forall p, p < 7 -> 0 < p -> ~ cut_at [firstn 7 (rfc_encode Len7 hello_frame); firstn 2 (skipn 7 (rfc_encode Len7 hello_frame)); skipn 9 (rfc_encode Len7 hello_frame)] p) as G.
  { intros p Hp Hz (c1 & c2 & E & El). destruct c1 as [|c c1]; [cbn in El; lia|]. injection E as <- _. cbn [concat] in El. rewrite app_length in El.
    cbn [length] in El. lia. }
  split; [reflexivity|]. split; [discriminate|]. split; [discriminate|]. split; [split; [repeat constructor; discriminate|reflexivity]|].
  split; [apply G; lia|]. split; [intros i Hi; change (head_len Len7 + i) with (2 + i); apply G; lia|]. split; vm_compute; reflexivity.
Qed.
