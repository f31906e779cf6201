(** Copies of a WebSocket: C88. *)
From Verif Require Import Base HMap Io IoProofs WsModel WsSpec WsBridge WsProofs WsProofs2 WsProofs3 WsLemmas HandlesModel.
From Coq Require Import Lia.

Definition small_calls (cs : list hcall) : Prop :=
  Forall (fun c => match c with CSend _ msg => (N.of_nat (length (message_payload msg)) < 2 ^ 63)%N | _ => True end) cs.
Definition close_frames (fs : list rfc_frame) : nat := length (filter (fun f => N.eqb (rf_op f) 8) fs).
Definition copies (cs : list hcall) : nat := length (filter (fun c => match c with CCopy _ => true | _ => false end) cs).

(** ** C88. With one copy there can be two close frames: the copy does not learn that the original has closed. *)
Theorem C88_one_close_frame_refuted : exists hs fs, h_run m32 [CCopy 0; CNext 0; CClose 1] (first_handle close_stream None) = Some hs /\
  frames_in (ws_out (hd_sock hs)) = Some fs /\ map rf_op fs = [8; 8]%N.
Proof. do 2 eexists. split; [vm_compute; reflexivity|]. split; vm_compute; reflexivity. Qed.
Print Assumptions C88_one_close_frame_refuted.

(** A copy made before the close is not told: after the peer's close frame was read through the original, and with
    nothing more to read, it reports malformed data however often it is asked. *)
Lemma closed_eof : exists hs, h_run m32 [CCopy 0; CNext 0] (first_handle close_stream None) = Some hs /\
  hd_states hs = [Some WsClosed; Some WsOpen] /\ ws_in (hd_sock hs) = [] /\ ws_budget (hd_sock hs) = None.
Proof. eexists. split; [vm_compute; reflexivity|]. repeat split. Qed.
Theorem C88_copy_not_told_refuted : forall n, exists hs w, h_run m32 ([CCopy 0; CNext 0] ++ repeat (CNext 1) n) (first_handle close_stream None) = Some hs /\
  hd_states hs = [Some WsClosed; Some WsOpen] /\ handle_ws hs 1 = Some w /\ fst (ws_next m32 w) = Err ClientError.
Proof.
  intros n. destruct closed_eof as (hs0 & H0 & H1 & H2 & H3).
  assert (forall cs hs hs', h_run m32 cs hs = Some hs' -> forall cs', h_run m32 (cs ++ cs') hs = h_run m32 cs' hs') as Happ.
  { induction cs as [|c cs IH]; cbn [h_run app]; intros hs hs' H cs'; [now injection H as ->|]. destruct (h_call m32 c hs); [now apply IH|discriminate]. }
  rewrite (Happ _ _ _ H0). clear H0 Happ. revert hs0 H1 H2 H3. induction n as [|n IH]; intros hs0 H1 H2 H3.
  - exists hs0, (ws_with_state WsOpen (hd_sock hs0)). split; [reflexivity|]. split; [exact H1|]. unfold handle_ws. rewrite H1. cbn [nth]. split; [reflexivity|].
    destruct hs0 as [sts [st i o b]]. cbn [hd_states hd_sock ws_in ws_budget] in *. subst. unfold ws_with_state. cbn [ws_in ws_out ws_budget]. now rewrite ws_next_eof.
  - cbn [repeat h_run h_call]. unfold handle_ws. rewrite H1. cbn [nth]. destruct hs0 as [sts [st i o b]]. cbn [hd_states hd_sock ws_in ws_budget] in *. subst. unfold ws_with_state. cbn [ws_in ws_out ws_budget].
    rewrite ws_next_eof. apply IH; reflexivity.
Qed.
Print Assumptions C88_copy_not_told_refuted.

(** What does hold. A handle through which the end was reported stays closed and leaves the socket alone, whatever is
    done with the other handles; so do copies made of it later. *)
Definition says_closed (m : machine) (hs : handles) (i : nat) : Prop :=
  exists w, handle_ws hs i = Some w /\ ws_next m w = (Err ConnectionClosed, w).
Lemma nth_set_eq i x l : i < length l -> nth i (set_state i x l) None = x.
Proof. intros H. unfold set_state. rewrite app_nth2; rewrite firstn_length; [|lia]. replace (i - _) with 0 by lia. reflexivity. Qed.
Lemma nth_set_neq i j x l : i < length l -> i <> j -> nth j (set_state i x l) None = nth j l None.
Proof.
  intros Hl Hn. unfold set_state. destruct (Nat.lt_ge_cases j i) as [H|H].
  - rewrite app_nth1 by (rewrite firstn_length; lia). rewrite <- (firstn_skipn i l) at 2. rewrite app_nth1; [reflexivity|rewrite firstn_length; lia].
  - rewrite app_nth2 by (rewrite firstn_length; lia). rewrite firstn_length, Nat.min_l by lia. destruct (j - i) as [|k] eqn:E; [lia|]. cbn [nth].
    rewrite <- (firstn_skipn (S i) l) at 2. rewrite app_nth2 by (rewrite firstn_length; lia). rewrite firstn_length, Nat.min_l by lia. f_equal. lia.
Qed.
Lemma set_length i x l : i < length l -> length (set_state i x l) = length l.
Proof. intros H. unfold set_state. rewrite app_length, firstn_length. cbn [length]. rewrite skipn_length. lia. Qed.
Lemma handle_nth hs i w : handle_ws hs i = Some w -> exists st, nth i (hd_states hs) None = Some st /\ w = ws_with_state st (hd_sock hs) /\ i < length (hd_states hs).
Proof.
  unfold handle_ws. destruct (nth i (hd_states hs) None) as [st|] eqn:E; [|discriminate]. intros [= <-]. exists st. repeat split. 
  destruct (Nat.lt_ge_cases i (length (hd_states hs))) as [H|H]; [exact H|]. rewrite nth_overflow in E by exact H. discriminate.
Qed.
Lemma says_closed_iff m hs i : says_closed m hs i <-> nth i (hd_states hs) None = Some WsClosed.
Proof.
  split.
  - intros (w & Hw & E). apply handle_nth in Hw as ([|] & Hn & -> & _); [|exact Hn]. apply ws_next_closes in E. discriminate.
  - intros H. exists (ws_with_state WsClosed (hd_sock hs)). unfold handle_ws. rewrite H. split; [reflexivity|]. now apply ws_closed_next.
Qed.
Lemma call_keeps_closed m c hs hs' i : h_call m c hs = Some hs' -> nth i (hd_states hs) None = Some WsClosed -> c <> CClose i ->
  nth i (hd_states hs') None = Some WsClosed.
Proof.
  intros H Hi Hc.
  assert (i < length (hd_states hs)) as Hl by (destruct (Nat.lt_ge_cases i (length (hd_states hs))) as [L|L]; [exact L|rewrite nth_overflow in Hi by exact L; discriminate]).
  destruct c as [j|j msg|j|j]; cbn [h_call] in H.
  - destruct (handle_ws hs j) as [w|] eqn:Hw; [|discriminate]. apply handle_nth in Hw as (st & Hn & -> & Hlj).
    assert (forall w', ws_next m (ws_with_state st (hd_sock hs)) = (fst (ws_next m (ws_with_state st (hd_sock hs))), w') ->
            hs' = Handles (set_state j (Some (ws_st w')) (hd_states hs)) w' -> nth i (hd_states hs') None = Some WsClosed) as K.
    { intros w' E ->. cbn [hd_states]. destruct (Nat.eq_dec j i) as [->|Hne]; [|now rewrite nth_set_neq]. rewrite nth_set_eq by exact Hl.
      rewrite Hi in Hn. injection Hn as <-. rewrite ws_closed_next in E by reflexivity. injection E as <-. reflexivity. }
    destruct (ws_next m (ws_with_state st (hd_sock hs))) as [[x|e| |] w']; try discriminate; injection H as <-; eapply K; reflexivity.
  - destruct (handle_ws hs j) as [w|] eqn:Hw; [|discriminate]. apply handle_nth in Hw as (st & Hn & -> & Hlj). unfold ws_send in H.
    pose proof (ws_write_st (frame_of_message msg) (ws_with_state st (hd_sock hs))) as [Es _].
    destruct (ws_write (frame_of_message msg) (ws_with_state st (hd_sock hs))) as [[x|e| |] w']; try discriminate; injection H as <-; cbn [snd] in Es; cbn [hd_states]; rewrite Es;
      (destruct (Nat.eq_dec j i) as [->|Hne]; [rewrite nth_set_eq by exact Hl; cbn; congruence|now rewrite nth_set_neq]).
  - destruct (handle_ws hs j) as [w|] eqn:Hw; [|discriminate]. apply handle_nth in Hw as (st & Hn & -> & Hlj). assert (j <> i) by congruence.
    destruct (ws_close (ws_with_state st (hd_sock hs))) as [[x|e| |] w']; try discriminate; injection H as <-; cbn [hd_states]; now rewrite nth_set_neq.
  - destruct (nth j (hd_states hs) None); [|discriminate]. injection H as <-. cbn [hd_states]. now rewrite app_nth1.
Qed.
Theorem C88_closed_handle_partial : forall m cs hs hs' i, says_closed m hs i -> h_run m cs hs = Some hs' -> ~ In (CClose i) cs -> says_closed m hs' i.
Proof.
  intros m. induction cs as [|c cs IH]; intros hs hs' i Hs H Hc; cbn [h_run] in H; [now injection H as <-|].
  destruct (h_call m c hs) as [hs1|] eqn:E; [|discriminate]. eapply IH; [|exact H|intros Hi; apply Hc; now right].
  apply says_closed_iff. eapply call_keeps_closed; [exact E|now apply says_closed_iff in Hs|]. intros ->. apply Hc. now left.
Qed.
Print Assumptions C88_closed_handle_partial.
Theorem C88_copy_of_closed_partial : forall m hs i hs', says_closed m hs i -> h_call m (CCopy i) hs = Some hs' -> says_closed m hs' (length (hd_states hs)).
Proof.
  intros m hs i hs' H E. apply says_closed_iff. apply says_closed_iff in H. cbn [h_call] in E. rewrite H in E. injection E as <-. cbn [hd_states].
  rewrite app_nth2, Nat.sub_diag by lia. reflexivity.
Qed.
Print Assumptions C88_copy_of_closed_partial.

(** And every handle writes at most one close frame: there are at most as many as there are handles. *)
Definition open_handles (l : list (option ws_state)) : nat := length (filter (fun x => match x with Some WsOpen => true | _ => false end) l).
Definition handles_inv (hs : handles) : Prop :=
  ws_budget (hd_sock hs) = None /\ exists fs, frames_in (ws_out (hd_sock hs)) = Some fs /\ close_frames fs + open_handles (hd_states hs) <= length (hd_states hs).
Lemma open_set i x l : i < length l -> open_handles (set_state i x l) + (match nth i l None with Some WsOpen => 1 | _ => 0 end) =
  open_handles l + (match x with Some WsOpen => 1 | _ => 0 end).
Proof.
  intros H. unfold set_state, open_handles. rewrite <- (firstn_skipn i l) at 4. rewrite !filter_app, !app_length.
  replace (skipn i l) with (nth i l None :: skipn (S i) l).
  - cbn [filter]. destruct x as [[|]|], (nth i l None) as [[|]|]; cbn [length]; lia.
  - clear -H. revert i H. induction l as [|y l IH]; intros i H; [cbn in H; lia|]. destruct i; [reflexivity|]. cbn [skipn nth]. apply IH. cbn in H. lia.
Qed.
Lemma close_frames_app a b : close_frames (a ++ b) = close_frames a + close_frames b.
Proof. unfold close_frames. now rewrite filter_app, app_length. Qed.
Lemma call_inv m c hs hs' : machine_ok m -> small_calls [c] -> handles_inv hs -> h_call m c hs = Some hs' ->
  handles_inv hs' /\ length (hd_states hs') = length (hd_states hs) + copies [c].
Proof.
  intros Hm Hs [Hb (fs & Hf & Hc)] H. destruct c as [j|j msg|j|j]; cbn [h_call] in H.
  - destruct (handle_ws hs j) as [w|] eqn:Hw; [|discriminate]. apply handle_nth in Hw as (st & Hn & -> & Hlj).
    set (w := ws_with_state st (hd_sock hs)) in *. destruct (ws_next m w) as [r w'] eqn:E.
    assert (hs' = Handles (set_state j (Some (ws_st w')) (hd_states hs)) w' /\ r <> Panic) as [-> Hp] by (destruct r; split; congruence).
    cbn [hd_states]. rewrite set_length by exact Hlj. split; [|cbn; lia]. unfold handles_inv. cbn [hd_sock hd_states]. rewrite set_length by exact Hlj.
    pose proof (open_set j (Some (ws_st w')) (hd_states hs) Hlj) as Ho. rewrite Hn in Ho. destruct st.
    + destruct (ws_next_none m w r w' Hm Hb eq_refl E Hp) as (Hb' & Hno & s' & r' & _ & _ & Hcase). split; [exact Hb'|].
      destruct r as [[p|p|d|d]|[|]| |]; try contradiction.
      * destruct Hcase as (_ & Hst & Hlen & Hout). rewrite Hout, Hst in *. exists (fs ++ [RFC true 0 10 None (message_payload (Pong p))]). split.
        -- apply frames_in_app; [exact Hf|]. rewrite frames_in_message by (destruct p; exact Hlen). reflexivity.
        -- rewrite close_frames_app. change (close_frames [RFC true 0 10 None (message_payload (Pong p))]) with 0. lia.
      * destruct Hcase as (_ & Hst & Hout). rewrite Hout, Hst in *. exists fs. split; [exact Hf|]. lia.
      * destruct Hcase as (_ & Hst & Hout). rewrite Hout, Hst in *. exists fs. split; [exact Hf|]. lia.
      * destruct Hcase as (_ & Hst & Hout). rewrite Hout, Hst in *. exists fs. split; [exact Hf|]. lia.
      * destruct Hcase as (_ & Hst & Hout). rewrite Hout, Hst in *. exists fs. split; [exact Hf|]. lia.
      * destruct Hcase as (_ & Hst & Hout). rewrite Hout, Hst in *. exists (fs ++ [RFC true 0 8 None []]). split.
        -- apply frames_in_app; [exact Hf|]. rewrite frames_in_wire by apply close_small. reflexivity.
        -- rewrite close_frames_app. change (close_frames [RFC true 0 8 None []]) with 1. lia.
    + unfold w in E. rewrite ws_closed_next in E by reflexivity. injection E as <- <-. cbn [ws_with_state ws_budget ws_out ws_st] in *. split; [exact Hb|]. exists fs. split; [exact Hf|]. lia.
  - destruct (handle_ws hs j) as [w|] eqn:Hw; [|discriminate]. apply handle_nth in Hw as (st & Hn & -> & Hlj).
    inversion Hs as [|? ? Hl _]; subst. unfold ws_send in H. rewrite ws_write_none in H by exact Hb. injection H as <-. cbn [hd_states ws_st ws_with_state].
    rewrite set_length by exact Hlj. split; [|cbn; lia]. unfold handles_inv. cbn [hd_sock hd_states ws_budget ws_out ws_with_state]. rewrite set_length by exact Hlj.
    split; [reflexivity|]. exists (fs ++ [RFC true 0 (message_op msg) None (message_payload msg)]). split.
    + apply frames_in_app; [exact Hf|]. now apply frames_in_message.
    + pose proof (open_set j (Some st) (hd_states hs) Hlj) as Ho. rewrite Hn in Ho. rewrite close_frames_app.
      assert (close_frames [RFC true 0 (message_op msg) None (message_payload msg)] = 0) as -> by (unfold close_frames; destruct msg; reflexivity). lia.
  - destruct (handle_ws hs j) as [w|] eqn:Hw; [|discriminate]. apply handle_nth in Hw as (st & Hn & -> & Hlj).
    pose proof (open_set j None (hd_states hs) Hlj) as Ho. rewrite Hn in Ho. destruct st; unfold ws_close in H; cbn [ws_with_state ws_st] in H.
    + unfold send_close in H. rewrite ws_write_none in H by exact Hb. injection H as <-. cbn [hd_states]. rewrite set_length by exact Hlj. split; [|cbn; lia].
      unfold handles_inv. cbn [hd_sock hd_states ws_budget ws_out ws_with_state]. rewrite set_length by exact Hlj. split; [reflexivity|].
      exists (fs ++ [RFC true 0 8 None []]). split.
      * apply frames_in_app; [exact Hf|]. rewrite frames_in_wire by apply close_small. reflexivity.
      * rewrite close_frames_app. change (close_frames [RFC true 0 8 None []]) with 1. lia.
    + injection H as <-. cbn [hd_states]. rewrite set_length by exact Hlj. split; [|cbn; lia].
      unfold handles_inv. cbn [hd_sock hd_states ws_budget ws_out ws_with_state]. rewrite set_length by exact Hlj. split; [exact Hb|]. exists fs. split; [exact Hf|]. lia.
  - destruct (nth j (hd_states hs) None) as [st|] eqn:Hn; [|discriminate]. injection H as <-. cbn [hd_states]. rewrite app_length. cbn [length]. split; [|cbn; lia].
    unfold handles_inv. cbn [hd_sock hd_states]. split; [exact Hb|]. exists fs. split; [exact Hf|]. rewrite app_length. unfold open_handles in *. rewrite filter_app, app_length.
    destruct st; cbn [filter length]; lia.
Qed.
Theorem C88_close_frames_partial : forall m s cs hs, machine_ok m -> small_calls cs -> h_run m cs (first_handle s None) = Some hs ->
  exists fs, frames_in (ws_out (hd_sock hs)) = Some fs /\ close_frames fs <= 1 + copies cs.
Proof.
  intros m s cs hs Hm. assert (forall cs hs0 hs, small_calls cs -> handles_inv hs0 -> h_run m cs hs0 = Some hs -> handles_inv hs /\ length (hd_states hs) = length (hd_states hs0) + copies cs) as K.
  { clear -Hm. induction cs as [|c cs IH]; intros hs0 hs Hs Hi H; cbn [h_run] in H; [injection H as <-; cbn; split; [exact Hi|lia]|].
    destruct (h_call m c hs0) as [hs1|] eqn:E; [|discriminate]. inversion Hs as [|? ? H1 H2]; subst.
    destruct (call_inv m c hs0 hs1 Hm ltac:(constructor; auto) Hi E) as [Hi1 Hl1]. destruct (IH hs1 hs H2 Hi1 H) as [Hi2 Hl2]. split; [exact Hi2|].
    rewrite Hl2, Hl1. unfold copies. cbn [filter]. destruct c; cbn [length]; lia. }
  intros Hs H. destruct (K cs (first_handle s None) hs Hs ltac:(split; [reflexivity|exists []; split; [reflexivity|cbn; lia]]) H) as [[_ (fs & Hf & Hc)] Hl]. cbn in Hl.
  exists fs. split; [exact Hf|]. lia.
Qed.
Print Assumptions C88_close_frames_partial.
Example C88_example : exists hs, h_run m32 [CCopy 0; CSend 1 (Text (bs "a")); CNext 0; CCopy 0; CNext 2; CSend 2 (Text (bs "b"))] (first_handle close_stream None) = Some hs /\
  says_closed m32 hs 0 /\ says_closed m32 hs 2.
Proof. eexists. split; [vm_compute; reflexivity|]. split; apply says_closed_iff; reflexivity. Qed.
