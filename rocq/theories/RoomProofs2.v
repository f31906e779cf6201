(** The whole chat with its users: the invariant holds. *)
From Verif Require Import Base HMap Num DomModel ClientModel ClientSpec ComponentModel JsonSpec JsonProofs ComponentSpec ComponentProofs ComponentProofs2
  ChatModel ChatSpec ChatProofs ChatProofs2 ChatProofs3 UserModel DeskSpec DeskProofs DeskProofs3 DeskProofs4 RoomSpec RoomProofs.
From Verif Require WsModel InnerHtml.
From Coq Require Import Lia.

Section Room.
Context (reparse : str -> str -> list node -> list node) (Hre : InnerHtml.standard reparse).
Notation oinv := (oinv reparse).
Notation open_ok := (open_ok reparse).
Notation gone_ok := (gone_ok reparse).
Lemma text_request c text i : asks (chat_listeners c) (@Ws linput N (inl (WsModel.Text text))) i -> exists r, i = BrowserRequest r.
Proof. intros H. apply chat_asks in H as [[=]|(t & n & pl & _ & _ & H)]. destruct c, H as [(_ & v & _ & ->)|(_ & ->)]; eauto. Qed.
Lemma seat_here h w l1 s k l2 g : oinv h (Room w (l1 ++ Seat s k :: l2) g) -> seat_ok reparse h (s_self s) (s_chat s) k.
Proof. intros (_ & _ & Ho & _). cbn [o_open] in Ho. rewrite Forall_forall in Ho. apply (Ho (Seat s k)). apply in_app_iff. right. now left. Qed.
Lemma served_nothing l : served_seats [] l l.
Proof. split; reflexivity. Qed.

(** A seat changes, the sessions do not. *)
Lemma desk_changes h w l1 s k k' l2 g : oinv h (Room w (l1 ++ Seat s k :: l2) g) -> (seat_ok reparse h (s_self s) (s_chat s) k -> seat_ok reparse h (s_self s) (s_chat s) k') ->
  oinv h (Room w (l1 ++ Seat s k' :: l2) g).
Proof.
  intros (W & N & Ho & Hg & Hh) Hok. cbn [o_server o_open o_gone] in *. apply Forall_app in Ho as [Ho1 Ho2]. inversion Ho2 as [|? ? Ho3 Ho4]; subst.
  unfold RoomProofs.oinv. cbn [o_server o_open o_gone]. rewrite !map_app in *. cbn [map t_session] in *. split; [exact W|]. split; [exact N|]. split; [|split; [exact Hg|exact Hh]].
  apply Forall_app. split; [exact Ho1|]. constructor; [apply Hok; exact Ho3|exact Ho4].
Qed.
(** A seat is left. *)
Lemma seat_left h w l1 s k l2 g w' l' hh msgs : oinv h (Room w (l1 ++ Seat s k :: l2) g) ->
  world_step (World w (map t_session (l1 ++ Seat s k :: l2))) (inr (World w' (map t_session l'), hh)) -> served_seats msgs (l1 ++ l2) l' ->
  messages_of (map fst hh) = [] -> names_of (map fst hh) = [] -> said hh = [] ->
  oinv (h ++ map (pair (s_self s)) hh) (Room w' l' (Seat s k :: g)).
Proof.
  intros (W & N & Ho & Hg & Hh) Ws Hs E1 E2 E3. cbn [o_server o_open o_gone] in *. pose proof (served_same _ _ _ Hs) as F2. pose proof (same_selves _ _ F2) as Eself.
  apply Forall_app in Ho as [Ho1 Ho2]. inversion Ho2 as [|? ? Ho3 Ho4]; subst. rewrite Forall_forall in Ho1, Ho4, Hg.
  assert (~ In (s_self s) (map t_self (l1 ++ l2 ++ g)) /\ NoDup (map t_self (l1 ++ l2 ++ g))) as [Hn Hnd].
  { rewrite <- app_assoc in N. cbn [app] in N. rewrite map_app in N. cbn [map] in N. change (t_self (Seat s k)) with (s_self s) in N. split; rewrite map_app; [now apply NoDup_remove_2 in N|now apply NoDup_remove_1 in N]. }
  assert (forall x, In x (l1 ++ l2 ++ g) -> made (t_self x) (map (pair (s_self s)) hh) = []) as Hm.
  { intros x Hx. apply made_other. intros E. apply Hn. rewrite E. now apply in_map. }
  unfold RoomProofs.oinv. cbn [o_server o_open o_gone]. split; [|split; [|split; [|split]]].
  - rewrite map_app, map_map. cbn [snd]. rewrite map_id. eapply wr_step; [exact W|exact Ws].
  - rewrite map_app, Eself. cbn [map]. change (t_self (Seat s k)) with (s_self s).
    rewrite app_assoc, map_app in Hn, Hnd. apply NoDup_Add with (a := s_self s) (l := map t_self (l1 ++ l2) ++ map t_self g); [apply Add_app|]. split; assumption.
  - apply (same_open _ _ _ _ F2). apply Forall_forall. intros x Hx. apply ok_more; [apply Hm; rewrite app_assoc; apply in_app_iff; now left|]. apply in_app_iff in Hx as [Hx|Hx]; auto.
  - constructor.
    + unfold RoomProofs.gone_ok. change (t_self (Seat s k)) with (s_self s). cbn [t_desk]. rewrite made_app, made_own. destruct Ho3 as (S1 & _ & (rs & R1 & R2 & R3) & S2 & S3). change (t_self (Seat s k)) with (s_self s) in *. cbn [t_desk t_session] in *.
      split; [exact S1|]. split; [exists rs; rewrite map_app, messages_app, names_app, E1, E2, !app_nil_r; auto|]. rewrite said_app, E3, app_nil_r, map_app, messages_app, names_app, E1, E2, !app_nil_r.
      split; [exact S2|]. destruct (s_chat s); destruct S3 as [S3 S4]; [rewrite S4; constructor|]. eapply Forall_impl; [|exact S4]. cbn beta. intros m ->. exact S3.
    + apply Forall_forall. intros x Hx. apply ok_more; [apply Hm; rewrite app_assoc; apply in_app_iff; now right|auto].
  - intros p Hp. assert (In p (map t_self ((l1 ++ Seat s k :: l2) ++ g))) as Hin.
    { rewrite map_app in Hp. apply in_app_iff in Hp as [Hp|Hp]; [now apply Hh|]. rewrite map_map in Hp. cbn [fst] in Hp. apply in_map_iff in Hp as (x & <- & _). change (s_self s) with (t_self (Seat s k)). apply in_map. apply in_app_iff. left. apply in_app_iff. right. now left. }
    rewrite map_app, Eself. rewrite !map_app in *. cbn [map] in *. rewrite !in_app_iff in *. cbn [In] in *. tauto.
Qed.

Theorem room_inv h o : room_reachable reparse h o -> oinv h o.
Proof.
  induction 1 as [|h o h' o' _ IH St].
  { split; [constructor|]. split; [constructor|]. split; [constructor|]. split; [constructor|]. intros p []. }
  destruct St as [w l g p Hp|w l1 s k k' l2 g Hh|w l1 s k l2 g text i w' s' msgs hh l' Ht Ha Hi Hs|w l1 s k l2 g text Ht Ha|w l1 p c i box k l2 g w' s' msgs hh l' Hi Hs|w l1 s k l2 g Hd|w l1 s k l2 g r w' res msgs l' Hd Hr Hs].
  - (* someone sits down *)
    rewrite app_nil_r. destruct IH as (W & N & Ho & Hg & Hh). cbn [o_server o_open o_gone] in *. unfold RoomProofs.oinv. cbn [o_server o_open o_gone]. split; [|split; [|split; [|split; [exact Hg|]]]].
    + rewrite map_app. cbn [map t_session]. rewrite <- (app_nil_r (map snd h)). eapply wr_step; [exact W|]. apply w_open. rewrite map_map. intros Hin. apply Hp. rewrite map_app. apply in_app_iff. left. exact Hin.
    + rewrite <- app_assoc, map_app. cbn [app map]. change (t_self _) with p at 1. apply NoDup_Add with (a := p) (l := map t_self l ++ map t_self g); [apply Add_app|]. rewrite <- map_app. split; assumption.
    + apply Forall_app. split; [exact Ho|]. constructor; [|constructor]. unfold RoomProofs.open_ok, seat_ok. change (t_self (Seat (Session p chat_new []) _)) with p. cbn [t_session t_desk s_chat].
      rewrite made_none by (intros Hin; apply Hp; now apply Hh). split; [constructor|]. split; [eexists; reflexivity|]. split; [exists []; split; [constructor|split; reflexivity]|]. split; [reflexivity|]. split; reflexivity.
    + intros q Hq. apply Hh in Hq. rewrite !map_app in *. rewrite !in_app_iff in *. tauto.
  - (* the user, or the browser *)
    rewrite app_nil_r. apply (desk_changes _ _ _ _ k); [exact IH|]. intros (S1 & S2 & S3 & S4). destruct (hand_sits _ _ _ _ Hh S1) as [S1' E]. split; [exact S1'|]. unfold running, wrote. rewrite E. auto.
  - (* a text is handled *)
    pose proof (seat_here _ _ _ _ _ _ _ IH) as (S1 & S2 & S3 & S4). pose proof IH as (W & _). cbn [o_server o_open] in W. rewrite map_app in W. cbn [map t_session] in W.
    destruct s as [p c box]. cbn [s_self s_chat] in *. destruct (handles _ _ _ _ _ _ box _ i w' s' msgs hh (world_inv _ _ W)) as (c1 & -> & U & R); [right; eauto|exact Hi|].
    assert (sits reparse p (heard_text k (answer hh) text)) as S1'.
    { destruct k as [ms r d sn t cl cj]. apply (sits_take _ _ ms r d sn t cl cj); [exact S1|exact Ht|]. exact (reply_answers _ _ _ _ _ _ R S2 Ha). }
    eapply (seats_after reparse h w l1 (Session p c box) k l2 g w' (Session p c1 box) (heard_text k (answer hh) text) hh l' msgs IH); [reflexivity| |exact Hs|].
    + destruct Hs as [Hs _]. rewrite map_app in Hs. cbn [map t_session] in Hs. rewrite Hs, map_app. cbn [map t_session]. exact (w_browser w (map t_session l1) (Session p c box) (map t_session l2) text i _ Ha Hi).
    + intros _. cbn [s_self s_chat]. split; [exact S1'|]. rewrite made_app, made_own. destruct S2 as (out & C). split; [|split].
      * unfold running. cbn [heard_text k_ms]. eapply hears; [exact Hre|exact S1|exists out; exact C|exact Ha|exact U].
      * eapply reply_wrote; [exact R|exact S3|reflexivity|exact C|exact Ha].
      * eapply reply_speech; [exact R|exact U|reflexivity|right; eapply text_request; exact Ha|exact S4].
  - (* a text is ignored *)
    rewrite app_nil_r. apply (desk_changes _ _ _ _ k); [exact IH|]. intros (S1 & S2 & S3 & S4). split; [|split; [|split; [|exact S4]]].
    + destruct k as [ms r d sn t cl cj]. apply (sits_take _ _ ms r d sn t cl cj); [exact S1|exact Ht|]. intros c dom ls out i rq C A. destruct S2 as (out' & C'). cbn [k_ms] in C'. rewrite C' in C. injection C as <- <- <- <-. destruct (Ha _ A).
    + unfold running. cbn [heard_text k_ms]. eapply idles; [exact Hre|exact S1|exact S2|exact Ha|discriminate|intros (? & [=])].
    + destruct S2 as (out & C). destruct S3 as (rs & R1 & R2). exists rs. split; [|exact R2]. cbn [heard_text k_ms]. eapply requested_idle; [exact R1|exact C|exact Ha].
  - (* an input is handled *)
    pose proof (seat_here _ _ _ _ _ _ _ IH) as (S1 & S2 & S3 & S4). pose proof IH as (W & _). cbn [o_server o_open] in W. rewrite map_app in W. cbn [map t_session] in W. cbn [s_self s_chat] in *.
    pose proof (world_inv _ _ W) as Wi. assert (exists m, i = ReceiveMessage m) as (m & ->).
    { destruct Wi as (_ & _ & F & _). cbn [w_sessions] in F. rewrite Forall_forall in F. destruct (F (Session p c (i :: box))) as [B _]; [apply in_app_iff; right; now left|]. cbn [s_box] in B. now inversion B. }
    destruct (handles _ _ _ _ _ _ box _ (ReceiveMessage m) w' s' msgs hh Wi) as (c1 & -> & U & R); [left; eauto|exact Hi|].
    assert (asks (chat_listeners c) (Input (ReceiveMessage m) : mail linput N) (ReceiveMessage m)) as Ha by constructor.
    assert (sits reparse p (heard_input k (answer hh) (ReceiveMessage m))) as S1'. { destruct k as [ms r d sn t cl cj]. apply (sits_other _ _ ms r d sn t cl cj). exact S1. }
    change (map (pair p) hh) with (map (pair (s_self (Session p c (ReceiveMessage m :: box)))) hh).
    eapply (seats_after reparse h w l1 (Session p c (ReceiveMessage m :: box)) k l2 g w' (Session p c1 box) (heard_input k (answer hh) (ReceiveMessage m)) hh l' msgs IH); [reflexivity| |exact Hs|].
    + destruct Hs as [Hs _]. rewrite map_app in Hs. cbn [map t_session] in Hs. rewrite Hs, map_app. cbn [map t_session]. exact (w_input w (map t_session l1) p c (ReceiveMessage m) box (map t_session l2) _ Hi).
    + intros _. cbn [s_self s_chat]. split; [exact S1'|]. rewrite made_app, made_own. destruct S2 as (out & C). split; [|split].
      * unfold running. cbn [heard_input k_ms]. eapply hears; [exact Hre|exact S1|exists out; exact C|exact Ha|exact U].
      * eapply reply_wrote; [exact R|exact S3|reflexivity|exact C|exact Ha].
      * eapply reply_speech; [exact R|exact U|reflexivity|left; eauto|exact S4].
  - (* someone leaves who had not joined *)
    change (@nil (N * (creq * linput))) with (map (pair (s_self s)) (@nil (creq * linput))). eapply (seat_left _ _ _ _ _ _ _ _ _ [] []); [exact IH| |apply served_nothing|reflexivity|reflexivity|reflexivity].
    pose proof (w_close w (map t_session l1) s (map t_session l2)) as St. rewrite Hd in St. rewrite !map_app. exact St.
  - (* someone leaves who had joined *)
    change [(s_self s, (r, res))] with (map (pair (s_self s)) [(r, res)]).
    assert (exists id, r = RemoveUser id) as (id & ->). { destruct (s_chat s); [discriminate|]. injection Hd as <-. eauto. }
    assert (res = Closed) as -> by (cbn [handle] in Hr; now injection Hr). eapply seat_left; [exact IH| |exact Hs|reflexivity|reflexivity|reflexivity].
    pose proof (w_close w (map t_session l1) s (map t_session l2)) as St. rewrite Hd, Hr in St. destruct Hs as [Hs _]. rewrite Hs, !map_app. exact St.
Qed.
End Room.
