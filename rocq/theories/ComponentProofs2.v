(** Events, and the component behind its WebSocket. *)
From Verif Require Import Base HMap Num Utf8 Json DomModel DomSpec ClientModel ClientSpec ComponentModel ComponentSpec ComponentProofs.
From Verif Require Import Io WsSpec WsBridge WsProofs WsProofs2 WsProofs3 WsLemmas.
From Verif Require WsModel.
From Coq Require Import Lia.

Lemma listening_shown n x : listening n x -> forall dom, shows n dom -> forall Q, every Q dom ->
  exists e, Q e /\ exists l, In l (el_listeners e) /\ x = (l_event l, l_name l).
Proof.
  induction 1 as [t a l kids x Hx|t a l kids n x Hn Hx IH]; intros dom Hs Q Hq.
  - inversion Hs as [? ? ? ? cs ? ? ? ks]; subst. inversion Hq as [? Q0 Qc]; subst. eexists. split; [exact Q0|]. cbn [el_listeners].
    apply in_map_iff in Hx as (y & <- & Hy). now exists y.
  - inversion Hs as [? ? ? ? cs tx ? ? ks ? ? HF]; subst. inversion Hq as [? Q0 Qc]; subst. cbn [el_children] in Qc. apply in_app_or in Hn as [Hn|Hn].
    + exfalso. destruct (text_of tx); [destruct Hn|]. destruct Hn as [<-|[]]. inversion Hx.
    + clear -HF Qc Hn IH. induction HF as [|k c ks cs Hk HF IHF]; [destruct Hn|]. inversion Qc; subst. destruct Hn as [->|Hn]; [|now apply IHF].
      now apply (IH c Hk Q).
Qed.

Lemma reads_delivered m (xs : list (N * list piece)) rest : machine_ok m -> Forall (fun x => delivered m (fst x) (snd x)) xs ->
  forall o, reads m (length xs) (WsModel.WS WsModel.WsOpen (flat_map (fun x => pieces_stream (snd x)) xs ++ rest) o None) = map (fun x => inl (msg_of_pieces x)) xs.
Proof.
  intros Hm. induction 1 as [|[op ps] xs Hx Hxs IH]; intros o; [reflexivity|].
  cbn [length reads flat_map snd fst map] in *. rewrite <- app_assoc. unfold WsModel.ws_next at 1. cbn [WsModel.ws_st WsModel.ws_in WsModel.ws_out WsModel.ws_budget].
  rewrite (msg_next_delivered m op ps _ Hm Hx). destruct (msg_of_pieces (op, ps)) as [p|p|d|d]; [|f_equal; apply IH..].
  rewrite ws_write_none by reflexivity. f_equal. apply IH.
Qed.
Lemma reads_add m n1 n2 w l : reads m n1 w = l -> length l = n1 -> forall w', ws_run m (repeat ONext n1) w = Some w' -> reads m (n1 + n2) w = l ++ reads m n2 w'.
Proof.
  revert w l. induction n1 as [|n1 IH]; intros w l Hr Hl w' Hw; cbn [Nat.add reads repeat ws_run] in *.
  - injection Hw as <-. now subst l.
  - unfold ws_step in Hw. destruct (WsModel.ws_next m w) as [[x|e| |] w1]; try discriminate; subst l; cbn [app length] in *; f_equal; apply IH; auto.
Qed.
Lemma reads_closed m n w : WsModel.ws_st w = WsModel.WsClosed -> reads m n w = repeat (inr WsModel.ConnectionClosed) n.
Proof. induction n; intros H; cbn [reads repeat]; [reflexivity|]. unfold WsModel.ws_next. rewrite H. f_equal. auto. Qed.
Lemma reads_eof m n b : reads m n (WsModel.WS WsModel.WsOpen [] b None) = repeat (inr WsModel.ClientError) n.
Proof. induction n; cbn [reads repeat]; [reflexivity|]. rewrite ws_next_eof. now f_equal. Qed.
Lemma reads_close m (xs : list (N * list piece)) cl rest : machine_ok m -> Forall (fun x => delivered m (fst x) (snd x)) xs ->
  piece_ok m cl -> rf_op (pc_frame cl) = 8%N ->
  forall o n, reads m (length xs + S n) (WsModel.WS WsModel.WsOpen (flat_map (fun x => pieces_stream (snd x)) xs ++ pieces_stream [cl] ++ rest) o None)
    = map (fun x => inl (msg_of_pieces x)) xs ++ repeat (inr WsModel.ConnectionClosed) (S n).
Proof.
  intros Hm Hx Hcl Hop. induction Hx as [|[op ps] xs Hx Hxs IH]; intros o n.
  - cbn [length Nat.add flat_map app reads map repeat]. unfold WsModel.ws_next at 1. cbn [WsModel.ws_st WsModel.ws_in WsModel.ws_out WsModel.ws_budget]. unfold WsModel.msg_next.
    rewrite (parse_piece m cl [] rest Hm Hcl). unfold frame_view. cbn [WsModel.op_code]. rewrite Hop. cbn [opcode_named].
    unfold WsModel.send_close. rewrite ws_write_none by reflexivity. f_equal. apply reads_closed. reflexivity.
  - cbn [length Nat.add reads flat_map snd fst map app] in *. rewrite <- app_assoc. unfold WsModel.ws_next at 1. cbn [WsModel.ws_st WsModel.ws_in WsModel.ws_out WsModel.ws_budget].
    rewrite (msg_next_delivered m op ps _ Hm Hx). destruct (msg_of_pieces (op, ps)) as [p|p|d|d]; [|f_equal; apply IH..].
    rewrite ws_write_none by reflexivity. f_equal. apply IH.
Qed.

Definition text_frame (t : str) : rfc_frame := RFC true 0 1 None t.
Lemma sent_frames texts : Forall (fun t => (N.of_nat (length t) < 2 ^ 63)%N) texts -> frames_in (sent_bytes texts) = Some (map text_frame texts).
Proof.
  induction 1 as [|t ts Ht _ IH]; [reflexivity|]. cbn [sent_bytes flat_map map]. apply (frames_in_app _ [text_frame t] _ (map text_frame ts)); [|exact IH].
  unfold WsModel.send_message. rewrite send_frame_none. cbn [fst]. now apply (frames_in_message (WsModel.Text t)).
Qed.
