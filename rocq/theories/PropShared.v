(** C80: two processes writing to one WebSocket. *)
From Verif Require Import Base Io WsModel WsSpec WsBridge WsProofs WsProofs2 WsProofs3 WsLemmas ComponentModel ComponentProofs2 SharedModel.
From Coq Require Import Lia.

Lemma frame_calls_wire f : concat (frame_calls f) = frame_wire f.
Proof. unfold frame_calls, frame_wire. rewrite concat_app. cbn [concat]. now rewrite app_nil_r. Qed.
Lemma calls_wire fs : concat (flat_map frame_calls fs) = concat (map frame_wire fs).
Proof. induction fs as [|f fs IH]; [reflexivity|]. cbn [flat_map map concat]. now rewrite concat_app, frame_calls_wire, IH. Qed.
Lemma frames_in_wires fs : Forall frame_small fs -> frames_in (concat (map frame_wire fs)) = Some (map sent_frame fs).
Proof.
  induction 1 as [|f fs Hf _ IH]; [reflexivity|]. cbn [map concat]. change (sent_frame f :: map sent_frame fs) with ([sent_frame f] ++ map sent_frame fs).
  apply frames_in_app; [now apply frames_in_wire|exact IH].
Qed.
Lemma interleave_map {A B} (g : A -> B) a b c : interleave a b c -> interleave (map g a) (map g b) (map g c).
Proof. induction 1; cbn [map]; constructor; assumption. Qed.
Lemma interleave_forall {A} (P : A -> Prop) a b c : interleave a b c -> Forall P a -> Forall P b -> Forall P c.
Proof. induction 1 as [|x a b c H IH|x a b c H IH]; intros Ha Hb; [constructor|inversion Ha; subst; constructor; auto|inversion Hb; subst; constructor; auto]. Qed.
Lemma interleave_nil_l {A} (b c : list A) : interleave [] b c -> c = b.
Proof. remember [] as a. induction 1 as [|x a b c H IH|x a b c H IH]; [reflexivity|discriminate|]. subst. now rewrite IH. Qed.
Lemma interleave_left {A} (a : list A) : interleave a [] a.
Proof. induction a; constructor; assumption. Qed.
Lemma interleave_right {A} (b : list A) : interleave [] b b.
Proof. induction b; constructor; assumption. Qed.

(** What the reader process writes when nobody else writes is what the model of [next] writes. *)
Lemma replies_written m : forall n w w', ws_budget w = None -> ws_run m (repeat ONext n) w = Some w' ->
  ws_out w' = ws_out w ++ concat (map frame_wire (replies m n w)).
Proof.
  induction n as [|n IH]; intros w w' Hb H; cbn [repeat ws_run replies map concat] in *.
  - injection H as <-. now rewrite app_nil_r.
  - unfold ws_step in H. destruct (ws_next m w) as [r w1] eqn:E.
    assert (match r with Ok x => ws_out w1 = ws_out w ++ concat (map frame_wire (reply (ws_st w) (inl x))) /\ ws_budget w1 = None
                       | Err e => ws_out w1 = ws_out w ++ concat (map frame_wire (reply (ws_st w) (inr e))) /\ ws_budget w1 = None
                       | _ => True end) as Hs.
    { destruct w as [st s o b]. cbn [ws_st ws_in ws_out ws_budget] in *. subst b. unfold ws_next in E. cbn [ws_st ws_in ws_out ws_budget] in E. destruct st.
      2: { injection E as <- <-. cbn. now rewrite app_nil_r. }
      destruct (msg_next m s) as [[msg|[]| |] s'].
      - destruct msg as [p|p|d|d].
        1: rewrite ws_write_none in E by reflexivity. all: injection E as <- <-; cbn [reply map concat ws_out ws_budget]; rewrite ?app_nil_r; split; reflexivity.
      - injection E as <- <-. cbn. now rewrite app_nil_r.
      - unfold send_close in E. rewrite ws_write_none in E by reflexivity. injection E as <- <-. split; [|reflexivity]. cbn [reply map concat ws_out]. now rewrite app_nil_r.
      - injection E as <- <-. exact I.
      - injection E as <- <-. exact I. }
    destruct r as [x|e| |]; try discriminate; destruct Hs as [Ho Hb1]; rewrite (IH w1 w' Hb1 H), Ho, map_app, concat_app, app_assoc; reflexivity.
Qed.
Lemma replies_small m : machine_ok m -> forall n w, ws_budget w = None -> Forall frame_small (replies m n w).
Proof.
  intros Hm. induction n as [|n IH]; intros w Hb; cbn [replies]; [constructor|].
  destruct (ws_st w) eqn:Est.
  2: { rewrite ws_closed_next by exact Est. cbn [reply app]. now apply IH. }
  destruct (ws_next m w) as [r w1] eqn:E. assert (r = Panic \/ r <> Panic) as [->|Hr] by (destruct r; auto; right; discriminate); [constructor|].
  destruct (ws_next_none m w r w1 Hm Hb Est E Hr) as (Hb1 & Hno & s' & r' & _ & _ & H).
  destruct r as [[p|p|d|d]|[]| |]; try congruence; cbn [reply app]; try (now apply IH); constructor; try (now apply IH).
  - destruct H as (_ & _ & Hl & _). unfold frame_small. cbn [decoded]. destruct p; exact Hl.
  - apply close_small.
Qed.

(** The frames a peer should be answered with, given what the application was told: a pong with the same payload for
    every ping, and one close frame when the connection was closed by it. *)
Fixpoint answers (rs : list (message + next_err)) : list rfc_frame :=
  match rs with
  | [] => []
  | inl (Ping p) :: rs' => RFC true 0 10 None (match p with Some d => d | None => [] end) :: answers rs'
  | inr ConnectionClosed :: _ => [RFC true 0 8 None []]
  | _ :: rs' => answers rs'
  end.
Lemma replies_closed m n : forall w, ws_st w = WsClosed -> replies m n w = [].
Proof. induction n as [|n IH]; intros w H; cbn [replies]; [reflexivity|]. rewrite ws_closed_next by exact H. rewrite H. cbn. now apply IH. Qed.
Lemma replies_answers m : forall n w, ws_st w = WsOpen -> map sent_frame (replies m n w) = answers (reads m n w).
Proof.
  induction n as [|n IH]; intros w Hw; cbn [replies reads answers]; [reflexivity|].
  destruct (ws_next m w) as [r w1] eqn:E. rewrite Hw.
  assert (r <> Err ConnectionClosed -> r <> Panic -> r <> OutOfFuel -> ws_st w1 = WsOpen) as Hst.
  { destruct w as [st s o b]. cbn [ws_st] in Hw. subst st. unfold ws_next in E. cbn [ws_st ws_in ws_out ws_budget] in E.
    destruct (msg_next m s) as [[msg|[]| |] s']; [|injection E as <- <-; auto| |injection E as <- <-; congruence..].
    - destruct msg as [p|p|d|d]; [|injection E as <- <-; auto..].
      match goal with H : (let (_, _) := ws_write ?f ?w in _) = _ |- _ => pose proof (ws_write_st f w) as [Hs _]; destruct (ws_write f w) as [[u|e| |] w2] end;
        injection E as <- <-; intros; auto; congruence.
    - destruct (send_close _) as [[] w2]; injection E as <- <-; congruence. }
  destruct r as [[p|p|d|d]|[]| |]; cbn [reply app map answers]; try (rewrite IH by (apply Hst; discriminate)); try reflexivity.
  - now rewrite replies_closed by (eapply ws_next_closes; eauto).
Qed.

(* ------------------------------------------------------------------ *)
(** ** C80. Refuted: header and payload are separate writes, so the answer to a ping can land between them. A client
    sends one ping while the component sends "ab": the client may receive an "update" nobody sent, followed by
    bytes that are no frame. *)
Theorem C80_frames_arrive_whole_refuted : exists ping rest out,
  delivered m32 9 [ping] /\ shared_output m32 1 (ws_new (pieces_stream [ping]) None) [bs "ab"] out /\
  rfc_decode out = Some (RFC true 0 1 None [x8a; x00], rest) /\ rfc_decode rest = None.
Proof.
  exists (whole (client true 0 9 [])). do 2 eexists. split; [|split].
  - assert (client_frame m32 Len7 (client true 0 9 [])) as Hc by (apply client_ok; cbn; lia).
    split; [constructor; [|constructor]; split; [exact Hc|apply whole_cut; apply Hc]|].
    split; [left; eexists; repeat split|]. split; [right; right; now left|]. split; [unfold payload_fits; cbn; lia|discriminate].
  - exists [[x81; x02]; [x8a; x00]; []; bs "ab"]. split; [|reflexivity].
    replace (flat_map frame_calls (replies _ _ _)) with [[x8a; x00]; []] by (vm_compute; reflexivity).
    replace (flat_map frame_calls (updates_sent _)) with [[x81; x02]; bs "ab"] by (vm_compute; reflexivity).
    repeat constructor.
  - vm_compute. split; reflexivity.
Qed.
Print Assumptions C80_frames_arrive_whole_refuted.

(** What does hold: if frames are written whole, or if the reader has nothing to answer, the client receives, under
    every schedule, exactly the frames of both sides, each side's in its order. *)
Theorem C80_whole_frames_partial : forall m n s texts out, machine_ok m ->
  Forall (fun t => (N.of_nat (length t) < 2 ^ 63)%N) texts ->
  whole_output m n (ws_new s None) texts out ->
  exists fs, frames_in out = Some fs /\ interleave (answers (reads m n (ws_new s None))) (map text_frame texts) fs.
Proof.
  intros m n s texts out Hm Ht (fs & Hi & ->). exists (map sent_frame fs). rewrite calls_wire. split.
  - apply frames_in_wires. eapply interleave_forall; [exact Hi|now apply replies_small|]. unfold updates_sent. apply Forall_map. eapply Forall_impl; [|exact Ht].
    intros t H. now apply (message_small (Text t)).
  - apply (interleave_map sent_frame) in Hi. rewrite replies_answers in Hi by reflexivity. unfold updates_sent in Hi. rewrite map_map in Hi. exact Hi.
Qed.
Print Assumptions C80_whole_frames_partial.
Theorem C80_quiet_reader_partial : forall m n s texts out, machine_ok m ->
  Forall (fun t => (N.of_nat (length t) < 2 ^ 63)%N) texts ->
  (forall r, In r (reads m n (ws_new s None)) -> r <> inr ConnectionClosed /\ forall p, r <> inl (Ping p)) ->
  shared_output m n (ws_new s None) texts out -> frames_in out = Some (map text_frame texts).
Proof.
  intros m n s texts out Hm Ht Hq (calls & Hi & ->).
  assert (replies m n (ws_new s None) = []) as E.
  { apply map_eq_nil with (f := sent_frame). rewrite replies_answers by reflexivity. clear -Hq. induction (reads m n (ws_new s None)) as [|r rs IH]; [reflexivity|].
    cbn [answers]. destruct (Hq r (or_introl eq_refl)) as [H1 H2]. specialize (IH (fun r' H => Hq r' (or_intror H))).
    destruct r as [[p|p|d|d]|[]]; auto; [now edestruct H2|congruence]. }
  rewrite E in Hi. cbn [flat_map] in Hi. apply interleave_nil_l in Hi as ->. rewrite calls_wire. unfold updates_sent. rewrite map_map.
  rewrite <- (sent_frames texts Ht). f_equal. clear. induction texts as [|t ts IH]; [reflexivity|]. cbn [map concat sent_bytes flat_map] in *. rewrite IH.
  unfold send_message. now rewrite send_frame_none.
Qed.
Print Assumptions C80_quiet_reader_partial.
(** Not vacuous: a ping and two updates, the pong written between the updates. *)
Example C80_example : exists out, whole_output m32 1 (ws_new (pieces_stream [whole (client true 0 9 (bs "x"))]) None) [bs "ab"; bs "cd"] out /\
  frames_in out = Some [RFC true 0 1 None (bs "ab"); RFC true 0 10 None (bs "x"); RFC true 0 1 None (bs "cd")].
Proof.
  eexists. split; [|].
  - eexists. split; [|reflexivity]. replace (replies _ _ _) with [Frame true false false false OpPong (bs "x")] by (vm_compute; reflexivity).
    cbn [updates_sent map]. apply il_right. apply il_left. apply il_right. apply il_nil.
  - vm_compute. reflexivity.
Qed.
Example C80_example_quiet : forall out, shared_output m32 1 (ws_new (pieces_stream [whole hello_frame]) None) [bs "ab"; bs "cd"] out ->
  frames_in out = Some [RFC true 0 1 None (bs "ab"); RFC true 0 1 None (bs "cd")].
Proof.
  intros out H. apply (C80_quiet_reader_partial _ _ _ [bs "ab"; bs "cd"] out m32_ok) in H; [exact H|repeat constructor|].
  intros r Hr. vm_compute in Hr. destruct Hr as [<-|[]]. split; [discriminate|]. intros p; discriminate.
Qed.
