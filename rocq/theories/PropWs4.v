(** C103: the transcript of a WebSocket. C104: control frames. *)
From Verif Require Import Base Io IoProofs Utf8 WsModel WsSpec WsBridge WsProofs WsProofs2 WsProofs3 WsLemmas.
From Coq Require Import Lia.
Ltac Zify.zify_post_hook ::= Z.div_mod_to_equations.

(* ------------------------------------------------------------------ *)
(** ** C103 *)
(** What a call returns to the program. *)
Inductive returned := Got (msg : message) | Failed (e : next_err) | Done | NotSent.
(** A program's calls (websocket.rs:28-81), with what they return; [None] as soon as one panics. *)
Definition call (m : machine) (o : ws_op) (w : websocket) : option (returned * websocket) :=
  match o with
  | ONext => match ws_next m w with (Ok msg, w') => Some (Got msg, w') | (Err e, w') => Some (Failed e, w') | _ => None end
  | OSend msg => match ws_send msg w with (Ok _, w') => Some (Done, w') | (Err _, w') => Some (NotSent, w') | _ => None end
  end.
Fixpoint calls (m : machine) (ops : list ws_op) (w : websocket) : option (list returned * websocket) :=
  match ops with
  | [] => Some ([], w)
  | o :: ops' => match call m o w with
                 | Some (r, w1) => match calls m ops' w1 with Some (rs, w2) => Some (r :: rs, w2) | None => None end
                 | None => None
                 end
  end.

(** Specification. The frames a conversation leaves on the wire, read off the calls and what they returned: the messages
    sent, a pong for every ping reported, one close frame when the end is reported for the first time. *)
Definition message_frame (msg : message) : rfc_frame :=
  match msg with
  | Ping p => RFC true 0 9 None (match p with Some d => d | None => [] end)
  | Pong p => RFC true 0 10 None (match p with Some d => d | None => [] end)
  | Text t => RFC true 0 1 None t
  | Binary d => RFC true 0 2 None d
  end.
Inductive conversation : bool -> list (ws_op * returned) -> list rfc_frame -> Prop :=
| cv_end ended : conversation ended [] []
| cv_send ended msg cs fs : conversation ended cs fs -> conversation ended ((OSend msg, Done) :: cs) (message_frame msg :: fs)
| cv_ping p cs fs : conversation false cs fs -> conversation false ((ONext, Got (Ping p)) :: cs) (message_frame (Pong p) :: fs)
| cv_message msg cs fs : (forall p, msg <> Ping p) -> conversation false cs fs -> conversation false ((ONext, Got msg) :: cs) fs
| cv_error cs fs : conversation false cs fs -> conversation false ((ONext, Failed ClientError) :: cs) fs
| cv_closed cs fs : conversation true cs fs -> conversation false ((ONext, Failed ConnectionClosed) :: cs) (RFC true 0 8 None [] :: fs)
| cv_still_closed cs fs : conversation true cs fs -> conversation true ((ONext, Failed ConnectionClosed) :: cs) fs.

Lemma message_frame_wire msg : (N.of_nat (length (message_payload msg)) < 2 ^ 63)%N ->
  frames_in (frame_wire (frame_of_message msg)) = Some [message_frame msg].
Proof. intros H. rewrite frames_in_message by exact H. now destruct msg as [[p|]|[p|]|t|d]. Qed.

Lemma transcript m ops : machine_ok m -> small_ops ops -> forall w rs w' done_, ws_budget w = None -> frames_in (ws_out w) = Some done_ ->
  calls m ops w = Some (rs, w') ->
  length rs = length ops /\ exists fs, conversation (match ws_st w with WsOpen => false | WsClosed => true end) (combine ops rs) fs /\
    frames_in (ws_out w') = Some (done_ ++ fs).
Proof.
  intros Hm. induction ops as [|o ops IH]; intros Hs w rs w' done_ Hb Hf E.
  - cbn [calls] in E. injection E as <- <-. split; [reflexivity|]. exists []. rewrite app_nil_r. split; [constructor|exact Hf].
  - inversion Hs as [|? ? Ho Hs']; subst. cbn [calls] in E. destruct (call m o w) as [[r w1]|] eqn:Ec; [|discriminate].
    destruct (calls m ops w1) as [[rs1 w2]|] eqn:Er; [|discriminate]. injection E as <- <-. specialize (IH Hs').
    destruct o as [|msg]; cbn [call] in Ec.
    + destruct (ws_st w) eqn:Est.
      2: { rewrite ws_closed_next in Ec by exact Est. injection Ec as <- <-.
           destruct (IH w rs1 w2 done_ Hb Hf Er) as (L & fs & C & F). rewrite Est in C. split; [cbn; now rewrite L|]. exists fs. split; [now constructor|exact F]. }
      destruct (ws_next m w) as [r0 w0] eqn:En.
      assert (r0 <> Panic) as Hp by (intros ->; discriminate).
      destruct (ws_next_none m w r0 w0 Hm Hb Est En Hp) as (Hb' & Hno & s' & r' & _ & _ & Hcase).
      destruct r0 as [msg|e| |]; try contradiction; injection Ec as <- <-.
      * destruct msg as [p|p|d|d].
        -- destruct Hcase as (_ & Hst & Hlen & Hout).
           destruct (IH w0 rs1 w2 (done_ ++ [message_frame (Pong p)]) Hb') as (L & fs & C & F); [|exact Er|].
           { rewrite Hout. apply frames_in_app; [exact Hf|]. apply message_frame_wire. destruct p; exact Hlen. }
           rewrite Hst in C. split; [cbn; now rewrite L|]. exists (message_frame (Pong p) :: fs). split; [now constructor|]. rewrite F, <- app_assoc. reflexivity.
        -- destruct Hcase as (_ & Hst & Hout). destruct (IH w0 rs1 w2 done_ Hb') as (L & fs & C & F); [now rewrite Hout|exact Er|].
           rewrite Hst in C. split; [cbn; now rewrite L|]. exists fs. split; [constructor; [discriminate|exact C]|exact F].
        -- destruct Hcase as (_ & Hst & Hout). destruct (IH w0 rs1 w2 done_ Hb') as (L & fs & C & F); [now rewrite Hout|exact Er|].
           rewrite Hst in C. split; [cbn; now rewrite L|]. exists fs. split; [constructor; [discriminate|exact C]|exact F].
        -- destruct Hcase as (_ & Hst & Hout). destruct (IH w0 rs1 w2 done_ Hb') as (L & fs & C & F); [now rewrite Hout|exact Er|].
           rewrite Hst in C. split; [cbn; now rewrite L|]. exists fs. split; [constructor; [discriminate|exact C]|exact F].
      * destruct e.
        -- destruct Hcase as (_ & Hst & Hout). destruct (IH w0 rs1 w2 done_ Hb') as (L & fs & C & F); [now rewrite Hout|exact Er|].
           rewrite Hst in C. split; [cbn; now rewrite L|]. exists fs. split; [now constructor|exact F].
        -- destruct Hcase as (_ & Hst & Hout).
           destruct (IH w0 rs1 w2 (done_ ++ [RFC true 0 8 None []]) Hb') as (L & fs & C & F); [|exact Er|].
           { rewrite Hout. apply frames_in_app; [exact Hf|]. rewrite frames_in_wire by apply close_small. reflexivity. }
           rewrite Hst in C. split; [cbn; now rewrite L|]. exists (RFC true 0 8 None [] :: fs). split; [now constructor|]. rewrite F, <- app_assoc. reflexivity.
    + unfold ws_send in Ec. rewrite ws_write_none in Ec by exact Hb. injection Ec as <- <-.
      destruct (IH (WS (ws_st w) (ws_in w) (ws_out w ++ frame_wire (frame_of_message msg)) None) rs1 w2 (done_ ++ [message_frame msg]) eq_refl) as (L & fs & C & F); [|exact Er|].
      { cbn [ws_out]. apply frames_in_app; [exact Hf|]. now apply message_frame_wire. }
      cbn [ws_st] in C. split; [cbn; now rewrite L|]. exists (message_frame msg :: fs). split; [now constructor|]. rewrite F, <- app_assoc. reflexivity.
Qed.

(** For every stream of client bytes and every sequence of calls that does not panic, the output is exactly the
    conversation: nothing else is ever written, in this order. *)
Theorem C103_transcript : forall m s ops rs w, machine_ok m -> small_ops ops ->
  calls m ops (ws_new s None) = Some (rs, w) ->
  length rs = length ops /\ exists fs, conversation false (combine ops rs) fs /\ frames_in (ws_out w) = Some fs.
Proof. intros m s ops rs w Hm Hs E. exact (transcript m ops Hm Hs (ws_new s None) rs w [] eq_refl eq_refl E). Qed.
Print Assumptions C103_transcript.

(** The answers of the [next] calls among the calls. *)
Fixpoint heard (cs : list (ws_op * returned)) : list returned :=
  match cs with
  | [] => []
  | (ONext, r) :: cs' => r :: heard cs'
  | (OSend _, _) :: cs' => heard cs'
  end.
Definition asking (o : ws_op) : bool := match o with ONext => true | OSend _ => false end.

(** A client that sends the messages [xs] (fragmented in any way, cut so that puck can read them: C04) is heard
    message by message, whatever the program sends in between; nothing panics and nothing is left over. *)
Theorem C103_messages_heard : forall m xs rest ops, machine_ok m ->
  Forall (fun x => delivered m (fst x) (snd x)) xs -> length (filter asking ops) = length xs ->
  exists rs w, calls m ops (ws_new (flat_map (fun x => pieces_stream (snd x)) xs ++ rest) None) = Some (rs, w) /\
    heard (combine ops rs) = map (fun x => Got (message_for (fst x) (payload_of (map pc_frame (snd x))))) xs /\
    ws_in w = rest /\ ws_st w = WsOpen.
Proof.
  intros m xs rest ops Hm Hxs Hl.
  assert (forall xs o, Forall (fun x => delivered m (fst x) (snd x)) xs -> length (filter asking ops) = length xs ->
    exists rs w, calls m ops (WS WsOpen (flat_map (fun x => pieces_stream (snd x)) xs ++ rest) o None) = Some (rs, w) /\
    heard (combine ops rs) = map (fun x => Got (message_for (fst x) (payload_of (map pc_frame (snd x))))) xs /\
    ws_in w = rest /\ ws_st w = WsOpen) as K; [|apply (K xs []); auto].
  clear xs Hxs Hl. induction ops as [|[|msg] ops IH]; intros xs o Hxs Hl.
  - destruct xs; [|discriminate]. cbn [calls flat_map app]. do 2 eexists. split; [reflexivity|]. auto.
  - destruct xs as [|[op ps] xs]; [discriminate|]. cbn [filter asking length] in Hl. inversion Hxs as [|? ? Hx Hxs']; subst.
    cbn [flat_map fst snd] in *. rewrite <- app_assoc.
    destruct Hx as (Hp & Hf & Hd & Hfit & Hu).
    assert (msg_next m (pieces_stream ps ++ flat_map (fun x => pieces_stream (snd x)) xs ++ rest) = (Ok (message_for op (payload_of (map pc_frame ps))), flat_map (fun x => pieces_stream (snd x)) xs ++ rest)) as En.
    { apply fragments_reassembled; auto. }
    assert (exists o', ws_next m (WS WsOpen (pieces_stream ps ++ flat_map (fun x => pieces_stream (snd x)) xs ++ rest) o None) =
      (Ok (message_for op (payload_of (map pc_frame ps))), WS WsOpen (flat_map (fun x => pieces_stream (snd x)) xs ++ rest) o' None)) as (o' & Ew).
    { unfold ws_next. cbn [ws_st ws_in ws_out ws_budget]. rewrite En. destruct (message_for op (payload_of (map pc_frame ps))) as [p|p|d|d]; [|eexists; reflexivity..].
      rewrite ws_write_none by reflexivity. eexists. reflexivity. }
    destruct (IH xs o' Hxs') as (rs & w & E & Hh & Hi & Hst); [lia|].
    exists (Got (message_for op (payload_of (map pc_frame ps))) :: rs), w. cbn [calls call]. rewrite Ew, E. split; [reflexivity|]. cbn [combine heard map fst snd]. rewrite Hh. auto.
  - cbn [filter asking] in Hl. cbn [calls call]. unfold ws_send. rewrite ws_write_none by reflexivity. cbn [ws_st ws_in ws_out].
    destruct (IH xs (o ++ frame_wire (frame_of_message msg)) Hxs Hl) as (rs & w & E & H). rewrite E. exists (Done :: rs), w. split; [reflexivity|]. exact H.
Qed.
Print Assumptions C103_messages_heard.

(* ------------------------------------------------------------------ *)
(** ** C104 (RFC 6455 5.5) *)
Definition control (f : rfc_frame) : Prop := (8 <= rf_op f)%N.
Definition valid_control (f : rfc_frame) : Prop := rf_fin f = true /\ length (rf_payload f) <= 125.
Definition short (p : option str) : Prop := match p with Some d => length d <= 125 | None => True end.

(** The control frames written are valid exactly if all pings received, and all pings and pongs the program sends, are short. *)
Theorem C104_sent_control_frames_exactly : forall m s ops rs w, machine_ok m -> small_ops ops ->
  calls m ops (ws_new s None) = Some (rs, w) ->
  exists fs, frames_in (ws_out w) = Some fs /\
  (Forall (fun f => control f -> valid_control f) fs <->
   (forall p, In (ONext, Got (Ping p)) (combine ops rs) -> short p) /\
   (forall p, In (OSend (Ping p)) ops -> short p) /\ (forall p, In (OSend (Pong p)) ops -> short p)).
Proof.
  intros m s ops rs w Hm Hs E. destruct (C103_transcript m s ops rs w Hm Hs E) as (Hl & fs & C & F). exists fs. split; [exact F|]. clear F E Hs Hm.
  assert (forall d op, op = 9%N \/ op = 10%N -> ((control (RFC true 0 op None d) -> valid_control (RFC true 0 op None d)) <-> length d <= 125)) as G0.
  { intros d op Ho. unfold control, valid_control. cbn [rf_op rf_fin rf_payload]. split; [intros H; apply H; lia|intros H _; split; [reflexivity|exact H]]. }
  assert (forall msg, (control (message_frame msg) -> valid_control (message_frame msg)) <-> match msg with Ping p | Pong p => short p | _ => True end) as G.
  { intros [[p|]|[p|]|t|d]; cbn [message_frame short]; try (apply G0; auto).
    - rewrite G0 by auto. split; [auto|intros _; cbn; lia].
    - rewrite G0 by auto. split; [auto|intros _; cbn; lia].
    - split; [auto|]. intros _ H. unfold control in H. cbn in H. lia.
    - split; [auto|]. intros _ H. unfold control in H. cbn in H. lia. }
  remember false as ended eqn:Ee. clear Ee. remember (combine ops rs) as cs eqn:Ecs. revert ops rs Hl Ecs.
  induction C as [ended|ended msg cs fs C IH|p cs fs C IH|msg cs fs Hm C IH|cs fs C IH|cs fs C IH|cs fs C IH]; intros ops rs Hl Ecs;
    destruct ops as [|o ops]; destruct rs as [|r rs]; try discriminate; cbn [length combine] in *;
    try (injection Ecs as <- <- ->; specialize (IH ops rs ltac:(lia) eq_refl)).
  - split; [|constructor]. intros _. repeat split; intros p [].
  - rewrite Forall_cons_iff, IH, G. split.
    + intros [H (H1 & H2 & H3)]. split; [|split].
      * intros p [[=]|Hp]; auto.
      * intros p [[= ->]|Hp]; auto.
      * intros p [[= ->]|Hp]; auto.
    + intros (H1 & H2 & H3). split; [destruct msg; auto|]; [apply H2; now left|apply H3; now left|].
      split; [|split]; intros p Hp; [apply H1|apply H2|apply H3]; now right.
  - rewrite Forall_cons_iff, IH, G. split.
    + intros [H (H1 & H2 & H3)]. split; [|split]; [intros q [[= ->]|Hq]|intros q [[=]|Hq]..]; auto.
    + intros (H1 & H2 & H3). split; [apply H1; now left|]. split; [|split]; intros q Hq; [apply H1|apply H2|apply H3]; now right.
  - rewrite IH. split; (intros (H1 & H2 & H3); split; [|split]; [|intros q Hq; apply H2|intros q Hq; apply H3]); try (now right); try (destruct Hq as [[=]|Hq]; exact Hq).
    + intros q [[= ->]|Hq]; [now destruct (Hm q)|auto].
    + intros q Hq. apply H1. now right.
  - rewrite IH. split; (intros (H1 & H2 & H3); split; [|split]; [intros q Hq; apply H1|intros q Hq; apply H2|intros q Hq; apply H3]); try (now right); destruct Hq as [[=]|Hq]; exact Hq.
  - rewrite Forall_cons_iff, IH. assert (control (RFC true 0 8 None []) -> valid_control (RFC true 0 8 None [])) as V by (intros _; split; [reflexivity|cbn; lia]).
    split; [intros [_ (H1 & H2 & H3)]|intros (H1 & H2 & H3); split; [exact V|]]; (split; [|split]; [intros q Hq; apply H1|intros q Hq; apply H2|intros q Hq; apply H3]); try (now right); destruct Hq as [[=]|Hq]; exact Hq.
  - rewrite IH. split; (intros (H1 & H2 & H3); split; [|split]; [intros q Hq; apply H1|intros q Hq; apply H2|intros q Hq; apply H3]); try (now right); destruct Hq as [[=]|Hq]; exact Hq.
Qed.
Print Assumptions C104_sent_control_frames_exactly.

(** Wanted: control frames from the client that are fragmented or longer than 125 bytes are refused. But every ping, in
    however many fragments and however long, is delivered and answered with one pong of the same length. *)
Theorem C104_invalid_pings_answered : forall m ps rest, machine_ok m -> delivered m 9 ps ->
  exists w frames, ws_next m (ws_new (pieces_stream ps ++ rest) None) = (Ok (message_for 9 (payload_of (map pc_frame ps))), w) /\
    frames_in (ws_out w) = Some frames /\ frames = [RFC true 0 10 None (payload_of (map pc_frame ps))].
Proof.
  intros m ps rest Hm Hd. pose proof (msg_next_delivered m 9 ps rest Hm Hd) as E.
  destruct (ws_next m (ws_new (pieces_stream ps ++ rest) None)) as [r w] eqn:En.
  assert (r = Ok (message_for 9 (payload_of (map pc_frame ps)))) as ->.
  { unfold ws_next, ws_new in En. cbn [ws_st ws_in ws_out ws_budget] in En. rewrite E in En. unfold msg_of_pieces in En. cbn [fst snd] in En. change (message_for 9 (payload_of (map pc_frame ps))) with (Ping (optional (payload_of (map pc_frame ps)))) in En. cbn iota zeta in En.
    rewrite ws_write_none in En by reflexivity. now injection En as <- _. }
  destruct (ping_pong m (ws_new (pieces_stream ps ++ rest) None) _ w Hm eq_refl eq_refl En) as (H & _).
  destruct (H (optional (payload_of (map pc_frame ps))) eq_refl) as (wire & Eo & F). exists w, [RFC true 0 10 None (payload_of (map pc_frame ps))].
  split; [reflexivity|]. split; [|reflexivity]. rewrite Eo. cbn [ws_new ws_out app]. rewrite F. unfold optional. now destruct (payload_of (map pc_frame ps)).
Qed.
Print Assumptions C104_invalid_pings_answered.
Definition long_ping : list piece := [whole (client false 0 9 (repeat x61 100)); whole (client true 0 0 (repeat x62 100))].
Lemma long_ping_delivered : delivered m32 9 long_ping.
Proof.
  split; [repeat (constructor; [apply whole_ok; cbn; lia|]); constructor|]. split.
  { right. exists (client false 0 9 (repeat x61 100)), [], (client true 0 0 (repeat x62 100)). repeat split; auto. }
  split; [unfold deliverable; auto|]. split; [unfold payload_fits; vm_compute; discriminate|discriminate].
Qed.
Theorem C104_control_frames_refuted : exists ps w f, delivered m32 9 ps /\
  Exists (fun p => control (pc_frame p) /\ ~ valid_control (pc_frame p)) ps /\
  ws_next m32 (ws_new (pieces_stream ps) None) = (Ok (Ping (Some (payload_of (map pc_frame ps)))), w) /\
  frames_in (ws_out w) = Some [f] /\ control f /\ ~ valid_control f.
Proof.
  destruct (C104_invalid_pings_answered m32 long_ping [] m32_ok long_ping_delivered) as (w & fs & E & F & ->).
  exists long_ping, w, (RFC true 0 10 None (payload_of (map pc_frame long_ping))). split; [apply long_ping_delivered|]. split.
  { left. split; [unfold control; cbn; lia|]. intros [[=] _]. }
  rewrite app_nil_r in E. split; [exact E|]. split; [exact F|]. split; [unfold control; cbn; lia|]. intros [_ H]. vm_compute in H. lia.
Qed.
Print Assumptions C104_control_frames_refuted.

(** Not vacuous: a text, a ping and a close frame from the client, two messages from the program. *)
Example C103_example : exists s rs w, calls m32 [ONext; OSend (Text (bs "a")); ONext; OSend (Binary []); ONext; ONext] (ws_new s None) = Some (rs, w) /\
  rs = [Got (Text (bs "hi")); Done; Got (Ping (Some (bs "p"))); Done; Failed ConnectionClosed; Failed ConnectionClosed] /\
  frames_in (ws_out w) = Some [RFC true 0 1 None (bs "a"); RFC true 0 10 None (bs "p"); RFC true 0 2 None []; RFC true 0 8 None []].
Proof.
  exists (pieces_stream [whole (client true 0 1 (bs "hi")); whole (client true 0 9 (bs "p")); whole (client true 0 8 [])]).
  do 2 eexists. split; [vm_compute; reflexivity|]. split; vm_compute; reflexivity.
Qed.
Example C103_heard_example : Forall (fun x => delivered m32 (fst x) (snd x)) [(9%N, long_ping); (9%N, long_ping)] /\
  length (filter asking [OSend (Text (bs "a")); ONext; OSend (Text (bs "b")); ONext]) = 2.
Proof. split; [|reflexivity]. repeat (constructor; [apply long_ping_delivered|]). constructor. Qed.
