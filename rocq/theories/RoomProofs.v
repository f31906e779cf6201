(** The whole chat with its users: the invariant. *)
From Verif Require Import Base HMap Num DomModel ClientModel ClientSpec ComponentModel JsonSpec JsonProofs ComponentSpec ComponentProofs ComponentProofs2
  ChatModel ChatSpec ChatProofs ChatProofs2 ChatProofs3 UserModel DeskSpec DeskProofs DeskProofs3 DeskProofs4 RoomSpec.
From Verif Require WsModel InnerHtml.
From Coq Require Import Lia.

Definition made (p : N) (h : record) : history := map snd (filter (fun x => N.eqb (fst x) p) h).
Lemma made_app p a b : made p (a ++ b) = made p a ++ made p b.
Proof. unfold made. now rewrite filter_app, map_app. Qed.
Lemma made_own p hh : made p (map (pair p) hh) = hh.
Proof. unfold made. induction hh as [|x hh IH]; [reflexivity|]. cbn [map filter fst]. rewrite N.eqb_refl. cbn [map snd]. now rewrite IH. Qed.
Lemma made_other p q hh : q <> p -> made p (map (pair q) hh) = [].
Proof. intros H. unfold made. induction hh as [|x hh IH]; [reflexivity|]. cbn [map filter fst]. destruct (N.eqb_spec q p); [contradiction|exact IH]. Qed.
Lemma made_none p h : ~ In p (map fst h) -> made p h = [].
Proof. unfold made. induction h as [|[q x] h IH]; [reflexivity|]. cbn [map filter fst]. intros H. destruct (N.eqb_spec q p) as [->|]; [exfalso; apply H; now left|]. apply IH. intros Hi. apply H. now right. Qed.
Lemma messages_app a b : messages_of (a ++ b) = messages_of a ++ messages_of b.
Proof. apply flat_map_app. Qed.
Lemma names_app a b : names_of (a ++ b) = names_of a ++ names_of b.
Proof. apply flat_map_app. Qed.

(** What a session's requests so far have to do with its state. *)
Definition speech (c : chat) (hp : history) : Prop :=
  map cm_contents (said hp) = messages_of (map fst hp) /\
  match c with Uninitialized _ => names_of (map fst hp) = [] /\ said hp = [] | Initialized u _ _ _ => names_of (map fst hp) = [u] /\ Forall (fun m => cm_username m = u) (said hp) end.

Section Room.
Context (reparse : str -> str -> list node -> list node) (Hre : InnerHtml.standard reparse).
Definition running (p : N) (c : chat) (k : desk) : Prop :=
  exists out, chat_process p (k_ms k) = (Looping p c (chat_element c) (chat_listeners c), out).
Definition wrote (p : N) (k : desk) (hp : history) : Prop :=
  exists rs, requested p (k_ms k) rs /\ messages_of rs = messages_of (map fst hp) /\ names_of rs = names_of (map fst hp).
Definition seat_ok (h : record) (p : N) (c : chat) (k : desk) : Prop :=
  sits reparse p k /\ running p c k /\ wrote p k (made p h) /\ speech c (made p h).

Lemma hand_sits p k k' : hand reparse p k k' -> sits reparse p k -> sits reparse p k' /\ k_ms k' = k_ms k.
Proof.
  intros H Hk. destruct H.
  - split; [eapply sits_type; eauto|reflexivity].
  - split; [eapply sits_click; eauto|reflexivity].
  - split; [eapply sits_read; eauto|reflexivity].
Qed.
Lemma hears p c k e m i c1 : sits reparse p k -> running p c k -> asks (chat_listeners c) m i -> chat_update e c i = Some c1 ->
  exists out', chat_process p (k_ms k ++ [(e, m)]) = (Looping p c1 (chat_element c1) (chat_listeners c1), out').
Proof.
  intros Hk (out & Hr) Ha Hu. destruct (sits_inv reparse Hre p k Hk) as (us & cs & out1 & rs & _ & _ & A & _). pose proof A as (A1 & _). rewrite Hr in A1. injection A1 as Hc _ _ _. rewrite Hc in Ha, Hu.
  destruct (alive_update p (k_ms k) cs out1 e m i c1 A Ha Hu) as (os & A' & _). rewrite last_snoc in A'. eauto.
Qed.
Lemma idles p c k e m : sits reparse p k -> running p c k -> (forall i, ~ asks (chat_listeners c) m i) -> ~ closing m -> ~ identity m ->
  exists out', chat_process p (k_ms k ++ [(e, m)]) = (Looping p c (chat_element c) (chat_listeners c), out').
Proof.
  intros Hk (out & Hr) Ha H1 H2. destruct (sits_inv reparse Hre p k Hk) as (us & cs & out1 & rs & _ & _ & A & _). pose proof A as (A1 & _). rewrite Hr in A1. injection A1 as Hc _ _ _. rewrite Hc in Ha.
  destruct (alive_idle p (k_ms k) cs out1 e m A Ha H1 H2) as (A' & _). rewrite <- Hc in A'. eauto.
Qed.
Definition reply (c : chat) (i : linput) (p : N) (hh : history) : Prop :=
  match chat_request c i p with
  | None => hh = []
  | Some (RegisterNewUser u q) => exists id, hh = [(RegisterNewUser u q, UserRegistered id u)]
  | Some (SendMessage id t) => exists m, hh = [(SendMessage id t, ReceiveMessage m)] /\ cm_contents m = t /\ match c with Initialized u _ _ _ => cm_username m = u | _ => False end
  | _ => False
  end.
(** One input handled by a session. *)
Lemma handles hw w l1 p c box0 box l2 i w' s' msgs hh : winv hw (World w (l1 ++ Session p c box0 :: l2)) ->
  ((exists m, i = ReceiveMessage m) \/ exists text, asks (chat_listeners c) (@Ws linput N (inl (WsModel.Text text))) i) ->
  handle_input w (Session p c box) i = inr (w', s', msgs, hh) ->
  exists c1, s' = Session p c1 box /\ chat_update (answer hh) c i = Some c1 /\ reply c i p hh.
Proof.
  intros W Hi H. unfold handle_input, reply in *. cbn [s_chat s_self s_box] in H.
  destruct (chat_request c i p) as [r|] eqn:Er.
  - destruct (handle w r) as [[[w1 res] ms1]|] eqn:Eh; [|discriminate]. destruct (chat_update (Some res) c i) as [c1|] eqn:Eu; [|discriminate]. injection H as _ <- _ <-.
    exists c1. split; [reflexivity|]. split; [exact Eu|]. destruct c as [u|u id ml comp], i as [| | |[| | |]|]; try discriminate Er; injection Er as <-.
    + cbn [handle] in Eh. destruct (get_id (id_gen w)) as [[id g]|]; [|discriminate]. injection Eh as _ <- _. eauto.
    + destruct (winv_send _ _ _ _ _ _ _ _ _ _ W) as (E & _). rewrite E in Eh. injection Eh as _ <- _. eexists. split; [reflexivity|]. split; reflexivity.
  - destruct (chat_update None c i) as [c1|] eqn:Eu; [|discriminate]. injection H as _ <- _ <-. exists c1. auto.
Qed.
Lemma reply_speech c i p hh hp e c1 : reply c i p hh -> chat_update e c i = Some c1 -> e = answer hh -> ((exists m, i = ReceiveMessage m) \/ exists r, i = BrowserRequest r) -> speech c hp -> speech c1 (hp ++ hh).
Proof.
  intros R U -> Hi (S1 & S2). unfold speech, reply in *. rewrite said_app, !map_app, messages_app, names_app.
  destruct c as [u|u id ml comp], i as [|v|m|[| | |]|]; cbn [chat_request] in R; try (destruct Hi as [(? & [=])|(? & [=])]);
    cbn [chat_update chat_update1] in U; try discriminate U.
  - subst hh. injection U as <-. cbn [said map flat_map messages_of names_of app]. rewrite !app_nil_r. split; [exact S1|exact S2].
  - subst hh. injection U as <-. cbn [said map flat_map messages_of names_of app]. rewrite !app_nil_r. split; [exact S1|exact S2].
  - destruct R as (id & ->). injection U as <-. cbn [said map flat_map messages_of names_of app fst snd]. rewrite !app_nil_r. split; [exact S1|]. destruct S2 as [-> ->]. split; [reflexivity|constructor].
  - subst hh. injection U as <-. cbn [said map flat_map messages_of names_of app]. rewrite !app_nil_r. split; [exact S1|exact S2].
  - subst hh. injection U as <-. cbn [said map flat_map messages_of names_of app]. rewrite !app_nil_r. split; [exact S1|exact S2].
  - destruct R as (m & -> & Hm & Hu). cbn [answer] in U. injection U as <-. cbn [said map flat_map messages_of names_of app fst snd]. rewrite S1, Hm, app_nil_r. split; [reflexivity|]. destruct S2 as [-> S2]. split; [reflexivity|].
    apply Forall_app. split; [exact S2|]. constructor; [exact Hu|constructor].
Qed.
Lemma reply_wrote c i p hh hp k k' e m out dom : reply c i p hh -> wrote p k hp -> k_ms k' = k_ms k ++ [(e, m)] -> chat_process p (k_ms k) = (Looping p c dom (chat_listeners c), out) -> asks (chat_listeners c) m i -> wrote p k' (hp ++ hh).
Proof.
  intros R (rs & R1 & R2 & R3) Ek C A. pose proof (requested_update p _ _ e m _ _ _ _ i R1 C A) as R4. unfold wrote. rewrite Ek. eexists. split; [exact R4|].
  rewrite map_app, !messages_app, !names_app, R2, R3. unfold reply in R. destruct (chat_request c i p) as [r|]; [|subst hh; now rewrite !app_nil_r].
  destruct r; try contradiction; [destruct R as (id & ->)|destruct R as (m' & -> & _)]; split; reflexivity.
Qed.
Lemma reply_answers c i p hh k text : reply c i p hh -> running p c k -> asks (chat_listeners c) (Ws (inl (WsModel.Text text)) : mail linput N) i -> server_answers p (k_ms k) (answer hh) text.
Proof.
  intros R (out & C) A c' dom ls out' i' r C' A' Hr. rewrite C in C'. injection C' as <- <- <- <-. rewrite (asks_fun _ _ _ _ A' A) in Hr. unfold reply in R. rewrite Hr in R.
  destruct r; try exact Logic.I; [destruct R as (id & ->)|destruct R as (m & -> & _)]; cbn [answer]; eauto.
Qed.

(** The seats of a room. *)
Definition same_seat (x x' : seat) : Prop := t_self x' = t_self x /\ s_chat (t_session x') = s_chat (t_session x) /\ t_desk x' = t_desk x.
Lemma served_same msgs : forall l l', served_seats msgs l l' -> Forall2 same_seat l l'.
Proof.
  intros l l' [E1 E2]. rewrite deliver_all_map in E1. revert l' E1 E2. induction l as [|x l IH]; intros [|x' l'] E1 E2; try discriminate; [constructor|].
  cbn [map] in *. injection E1 as E1 E1'. injection E2 as E2 E2'. constructor; [|now apply IH]. unfold same_seat, t_self. rewrite E1. split; [reflexivity|]. split; [reflexivity|exact E2].
Qed.
Definition open_ok (h : record) (x : seat) : Prop := seat_ok h (t_self x) (s_chat (t_session x)) (t_desk x).
Definition gone_ok (h : record) (x : seat) : Prop := sits reparse (t_self x) (t_desk x) /\ wrote (t_self x) (t_desk x) (made (t_self x) h) /\
  map cm_contents (said (made (t_self x) h)) = messages_of (map fst (made (t_self x) h)) /\ Forall (fun m => names_of (map fst (made (t_self x) h)) = [cm_username m]) (said (made (t_self x) h)).
Lemma same_open h l l' : Forall2 same_seat l l' -> Forall (open_ok h) l -> Forall (open_ok h) l'.
Proof. induction 1 as [|x x' l l' (E1 & E2 & E3) F IH]; intros H; [constructor|]. inversion H; subst. constructor; [|auto]. unfold open_ok. now rewrite E1, E2, E3. Qed.
Lemma same_selves l l' : Forall2 same_seat l l' -> map t_self l' = map t_self l.
Proof. induction 1 as [|x x' l l' (E1 & _) F IH]; [reflexivity|]. cbn [map]. now rewrite E1, IH. Qed.
Lemma ok_more h h' x : made (t_self x) h' = [] -> (open_ok h x -> open_ok (h ++ h') x) /\ (gone_ok h x -> gone_ok (h ++ h') x).
Proof. intros E. unfold open_ok, gone_ok, seat_ok. rewrite made_app, E, app_nil_r. auto. Qed.

Definition oinv (h : record) (o : room) : Prop :=
  world_reachable (map snd h) (World (o_server o) (map t_session (o_open o))) /\ NoDup (map t_self (o_open o ++ o_gone o)) /\
  Forall (open_ok h) (o_open o) /\ Forall (gone_ok h) (o_gone o) /\ (forall p, In p (map fst h) -> In p (map t_self (o_open o ++ o_gone o))).

(** A session has acted. *)
Lemma seats_after h w l1 s k l2 g w' s' k' hh l' msgs :
  oinv h (Room w (l1 ++ Seat s k :: l2) g) -> s_self s' = s_self s ->
  world_step (World w (map t_session (l1 ++ Seat s k :: l2))) (inr (World w' (map t_session l'), hh)) ->
  served_seats msgs (l1 ++ Seat s' k' :: l2) l' ->
  (seat_ok h (s_self s) (s_chat s) k -> seat_ok (h ++ map (pair (s_self s)) hh) (s_self s) (s_chat s') k') ->
  oinv (h ++ map (pair (s_self s)) hh) (Room w' l' g).
Proof.
  intros (W & N & Ho & Hg & Hh) Es Ws Hs Hok. cbn [o_server o_open o_gone] in *. pose proof (served_same _ _ _ Hs) as F2. pose proof (same_selves _ _ F2) as Eself.
  assert (map t_self (l1 ++ Seat s' k' :: l2) = map t_self (l1 ++ Seat s k :: l2)) as Esame by (rewrite !map_app; cbn [map]; unfold t_self at 2 5; cbn [t_session]; now rewrite Es).
  unfold oinv. cbn [o_server o_open o_gone]. split; [|split; [|split; [|split]]].
  - rewrite map_app, map_map. cbn [snd]. rewrite map_id. eapply wr_step; [exact W|exact Ws].
  - rewrite map_app, Eself, Esame, <- map_app. exact N.
  - apply (same_open _ _ _ F2). apply Forall_app in Ho as [Ho1 Ho2]. inversion Ho2 as [|? ? Ho3 Ho4]; subst.
    assert (forall x, In x (l1 ++ l2) -> made (t_self x) (map (pair (s_self s)) hh) = []) as Hm.
    { intros x Hx. apply made_other. intros E. rewrite <- app_assoc in N. cbn [app] in N. rewrite map_app in N. cbn [map] in N. apply NoDup_remove_2 in N. apply N.
      change (t_self (Seat s k)) with (s_self s). rewrite E, <- map_app. apply in_map. apply in_app_iff in Hx as [Hx|Hx]; apply in_app_iff; [now left|right; apply in_app_iff; now left]. }
    rewrite Forall_forall in Ho1, Ho4. apply Forall_app. split; [|constructor].
    + apply Forall_forall. intros x Hx. apply ok_more; [apply Hm; apply in_app_iff; now left|auto].
    + unfold open_ok, t_self. cbn [t_session t_desk]. rewrite Es. apply Hok. exact Ho3.
    + apply Forall_forall. intros x Hx. apply ok_more; [apply Hm; apply in_app_iff; now right|auto].
  - rewrite Forall_forall in Hg. apply Forall_forall. intros x Hx. apply ok_more; [|auto]. apply made_other. intros E.
    rewrite <- app_assoc in N. cbn [app] in N. rewrite map_app in N. cbn [map] in N. apply NoDup_remove_2 in N. apply N.
    change (t_self (Seat s k)) with (s_self s). rewrite E, <- map_app. apply in_map. apply in_app_iff. right. apply in_app_iff. now right.
  - intros p Hp. rewrite map_app, Eself, Esame, <- map_app. rewrite map_app in Hp. apply in_app_iff in Hp as [Hp|Hp]; [now apply Hh|].
    rewrite map_map in Hp. cbn [fst] in Hp. apply in_map_iff in Hp as (x & <- & _). change (s_self s) with (t_self (Seat s k)). apply in_map. apply in_app_iff. left. apply in_app_iff. right. now left.
Qed.
End Room.
