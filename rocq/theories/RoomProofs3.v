(** The whole chat with its users: who said what since when. *)
From Verif Require Import Base HMap Num DomModel ClientModel ClientSpec ComponentModel JsonSpec JsonProofs ComponentSpec ComponentProofs ComponentProofs2
  ChatModel ChatSpec ChatProofs ChatProofs2 ChatProofs3 UserModel DeskSpec DeskProofs DeskProofs3 DeskProofs4 RoomSpec RoomProofs RoomProofs2.
From Verif Require WsModel InnerHtml.
From Coq Require Import Lia.

(** The last event of a kind splits a list in one way. *)
Lemma last_such {A} (P : A -> Prop) : forall h1 h1' e e' h2 h2', h1 ++ e :: h2 = h1' ++ e' :: h2' -> P e -> P e' -> Forall (fun x => ~ P x) h2 -> Forall (fun x => ~ P x) h2' ->
  h1 = h1' /\ e = e' /\ h2 = h2'.
Proof.
  induction h1 as [|a h1 IH]; intros [|a' h1'] e e' h2 h2' E P1 P2 F1 F2; cbn [app] in E; injection E as E0 E.
  - auto.
  - subst h2. apply Forall_app in F1 as [_ F1]. inversion F1. contradiction.
  - subst h2'. apply Forall_app in F2 as [_ F2]. inversion F2. contradiction.
  - destruct (IH _ _ _ _ _ E P1 P2 F1 F2) as (-> & -> & ->). subst. auto.
Qed.

Definition chat_user (c : chat) : option (N * str) := match c with Uninitialized _ => None | Initialized u id _ _ => Some (id, u) end.
Definition event_ok (p : N) (c c1 : chat) (hh : history) : Prop :=
  (hh = [] /\ chat_user c1 = chat_user c) \/
  (exists u id, chat_user c = None /\ chat_user c1 = Some (id, u) /\ hh = [(RegisterNewUser u p, UserRegistered id u)]) \/
  (exists u id t m, chat_user c = Some (id, u) /\ chat_user c1 = Some (id, u) /\ hh = [(SendMessage id t, ReceiveMessage m)] /\ cm_sender m = id).
Lemma events hw w l1 p c box0 box l2 i w' s' msgs hh : winv hw (World w (l1 ++ Session p c box0 :: l2)) ->
  ((exists m, i = ReceiveMessage m) \/ exists r, i = BrowserRequest r) ->
  handle_input w (Session p c box) i = inr (w', s', msgs, hh) ->
  s_self s' = p /\ event_ok p c (s_chat s') hh.
Proof.
  intros W Hi H. unfold handle_input in H. cbn [s_chat s_self s_box] in H. unfold event_ok.
  destruct c as [u|u id ml comp], i as [|v|m|[| | |]|]; cbn [chat_request] in H; try (destruct Hi as [(? & [=])|(? & [=])]); cbn [chat_update chat_update1] in H; try discriminate H.
  - injection H as _ <- _ <-. split; [reflexivity|]. left. auto.
  - injection H as _ <- _ <-. split; [reflexivity|]. left. auto.
  - cbn [handle] in H. destruct (get_id (id_gen w)) as [[id g]|]; [|discriminate]. injection H as _ <- _ <-. split; [reflexivity|]. right. left. exists u, id. auto.
  - injection H as _ <- _ <-. split; [reflexivity|]. left. auto.
  - injection H as _ <- _ <-. split; [reflexivity|]. left. auto.
  - destruct (winv_send _ _ _ _ _ _ _ _ _ _ W) as (E & _). rewrite E in H. injection H as _ <- _ <-. split; [reflexivity|]. right. right. exists u, id, comp. eexists. repeat split.
Qed.

Section Room.
Context (reparse : str -> str -> list node -> list node) (Hre : InnerHtml.standard reparse).
(** What has happened since a session registered. *)
Definition joined_at (p : N) (x : N * (creq * linput)) : Prop := exists v, fst (snd x) = RegisterNewUser v p.
Definition since (p id : N) (x : N * (creq * linput)) : Prop := ~ joined_at p x /\ forall m, snd (snd x) = ReceiveMessage m -> (cm_sender m = id <-> fst x = p).
Definition told (h : record) (p : N) (c : chat) : Prop :=
  forall id u, chat_user c = Some (id, u) -> exists h1 h2, h = h1 ++ (p, (RegisterNewUser u p, UserRegistered id u)) :: h2 /\ Forall (since p id) h2.
Definition told_seat (h : record) (x : seat) : Prop := told h (t_self x) (s_chat (t_session x)).
Lemma told_more h h' p c : told h p c -> (forall id u, chat_user c = Some (id, u) -> Forall (since p id) h') -> told (h ++ h') p c.
Proof. intros T H id u E. destruct (T id u E) as (h1 & h2 & -> & F). exists h1, (h2 ++ h'). split; [now rewrite <- app_assoc|]. apply Forall_app. split; [exact F|]. eauto. Qed.
Lemma same_told h l l' : Forall2 same_seat l l' -> Forall (told_seat h) l -> Forall (told_seat h) l'.
Proof. induction 1 as [|x x' l l' (E1 & E2 & E3) F IH]; intros H; [constructor|]. inversion H; subst. constructor; [|auto]. unfold told_seat. now rewrite E1, E2. Qed.

Lemma told_after h w l1 s k l2 g w' s' k' i hh l' msgs box : oinv reparse h (Room w (l1 ++ Seat s k :: l2) g) ->
  ((exists m, i = ReceiveMessage m) \/ exists r, i = BrowserRequest r) -> handle_input w (Session (s_self s) (s_chat s) box) i = inr (w', s', msgs, hh) ->
  served_seats msgs (l1 ++ Seat s' k' :: l2) l' -> Forall (told_seat h) (l1 ++ Seat s k :: l2) -> Forall (told_seat (h ++ map (pair (s_self s)) hh)) l'.
Proof.
  intros (W & N & _) Hi H Hs F. cbn [o_server o_open o_gone] in *. apply (same_told _ _ _ (served_same _ _ _ Hs)). rewrite map_app in W. cbn [map t_session] in W. destruct s as [p c box0]. cbn [s_self s_chat] in *.
  pose proof (world_inv _ _ W) as Wi. destruct (events _ _ _ _ _ _ _ _ _ _ _ _ _ Wi Hi H) as (Es & Ev).
  apply Forall_app in F as [F1 F2]. inversion F2 as [|? ? F3 F4]; subst. rewrite Forall_forall in F1, F4.
  assert (forall x, In x (l1 ++ l2) -> told_seat h x -> told_seat (h ++ map (pair (s_self s')) hh) x) as Ho.
  { intros x Hx T. apply told_more; [exact T|]. intros id u Eu.
    assert (s_self s' <> t_self x) as Hne.
    { intros E. rewrite <- app_assoc in N. cbn [app] in N. rewrite map_app in N. cbn [map] in N. apply NoDup_remove_2 in N. apply N.
      change (t_self (Seat (Session (s_self s') c box0) k)) with (s_self s'). rewrite E, <- map_app. apply in_map. apply in_app_iff in Hx as [Hx|Hx]; apply in_app_iff; [now left|right; apply in_app_iff; now left]. }
    destruct Ev as [[-> _]|[(v & i1 & _ & _ & ->)|(v & i1 & t & m & E1 & _ & -> & Em)]]; cbn [map]; [constructor| |]; (constructor; [|constructor]); split.
    - intros (v0 & E0). cbn [fst snd] in E0. injection E0 as _ E0. exact (Hne E0).
    - cbn [snd]. discriminate.
    - intros (v0 & E0). discriminate E0.
    - cbn [fst snd]. intros m' [= <-]. split; [|intros E; destruct (Hne E)]. rewrite Em. intros ->. exfalso.
      destruct Wi as (_ & _ & Fs & _). cbn [w_sessions w_server] in Fs. rewrite Forall_forall in Fs.
      assert (In (t_session x) (map t_session l1 ++ Session (s_self s') c box0 :: map t_session l2)) as Hin.
      { apply in_app_iff in Hx as [Hx|Hx]; apply in_app_iff; [left|right; right]; now apply in_map. }
      destruct (Fs _ Hin) as [_ G1]. destruct (Fs (Session (s_self s') c box0)) as [_ G2]; [apply in_app_iff; right; now left|].
      change (user_of (t_session x)) with (chat_user (s_chat (t_session x))) in G1. rewrite Eu in G1. change (user_of (Session (s_self s') c box0)) with (chat_user c) in G2. rewrite E1 in G2.
      destruct G1 as [G1 _], G2 as [G2 _]. rewrite G1 in G2. injection G2 as _ G2. apply Hne. symmetry. exact G2. }
  apply Forall_app. split; [|constructor].
  - apply Forall_forall. intros x Hx. apply Ho; [apply in_app_iff; now left|auto].
  - unfold told_seat. cbn [t_session]. change (t_self (Seat s' k')) with (s_self s'). unfold told_seat in F3. cbn [t_session s_chat] in F3. change (t_self (Seat (Session (s_self s') c box0) k)) with (s_self s') in F3.
    destruct Ev as [[-> E]|[(v & i1 & _ & E & ->)|(v & i1 & t & m & E1 & E & -> & Em)]]; cbn [map].
    + rewrite app_nil_r. unfold told. rewrite E. exact F3.
    + intros id u E'. rewrite E in E'. injection E' as <- <-. exists h, []. split; [reflexivity|constructor].
    + intros id u E'. rewrite E in E'. injection E' as <- <-. destruct (F3 _ _ E1) as (h1 & h2 & -> & F5). eexists h1, (h2 ++ [_]). rewrite <- app_assoc. split; [reflexivity|]. apply Forall_app. split; [exact F5|]. constructor; [|constructor].
      split; [intros (? & [=])|]. cbn [fst snd]. intros m' [= <-]. split; auto.
  - apply Forall_forall. intros x Hx. apply Ho; [apply in_app_iff; now right|auto].
Qed.

Theorem room_told h o : room_reachable reparse h o -> Forall (told_seat h) (o_open o).
Proof.
  induction 1 as [|h o h' o' R IH St]; [constructor|]. pose proof (room_inv reparse Hre _ _ R) as I.
  destruct St as [w l g p Hp|w l1 s k k' l2 g Hh|w l1 s k l2 g text i w' s' msgs hh l' Ht Ha Hi Hs|w l1 s k l2 g text Ht Ha|w l1 p c i box k l2 g w' s' msgs hh l' Hi Hs|w l1 s k l2 g Hd|w l1 s k l2 g r w' res msgs l' Hd Hr Hs]; cbn [o_open] in *; rewrite ?app_nil_r.
  - apply Forall_app. split; [exact IH|]. constructor; [|constructor]. intros id u [=].
  - apply Forall_app in IH as [H1 H2]. inversion H2 as [|? ? H3 H4]; subst. apply Forall_app. split; [exact H1|]. constructor; [exact H3|exact H4].
  - destruct s as [p c box]. exact (told_after h w l1 (Session p c box) k l2 g w' s' _ i hh l' msgs box I (or_intror (text_request _ _ _ Ha)) Hi Hs IH).
  - apply Forall_app in IH as [H1 H2]. inversion H2 as [|? ? H3 H4]; subst. apply Forall_app. split; [exact H1|]. constructor; [exact H3|exact H4].
  - assert (exists m, i = ReceiveMessage m) as Hm.
    { destruct I as (W & _). cbn [o_server o_open] in W. rewrite map_app in W. cbn [map t_session] in W. destruct (world_inv _ _ W) as (_ & _ & F & _). cbn [w_sessions] in F. rewrite Forall_forall in F. destruct (F (Session p c (i :: box))) as [B _]; [apply in_app_iff; right; now left|]. cbn [s_box] in B. now inversion B. }
    exact (told_after h w l1 (Session p c (i :: box)) k l2 g w' s' _ i hh l' msgs box I (or_introl Hm) Hi Hs IH).
  - apply Forall_app in IH as [H1 H2]. inversion H2 as [|? ? H3 H4]; subst. apply Forall_app. split; [exact H1|exact H4].
  - apply (same_told _ _ _ (served_same _ _ _ Hs)). apply Forall_app in IH as [H1 H2]. inversion H2 as [|? ? H3 H4]; subst.
    assert (exists id, r = RemoveUser id) as (id & ->). { destruct (s_chat s); [discriminate|]. injection Hd as <-. eauto. }
    assert (res = Closed) as -> by (cbn [handle] in Hr; now injection Hr).
    assert (Forall (told_seat h) (l1 ++ l2)) as H5 by (apply Forall_app; split; assumption). eapply Forall_impl; [|exact H5]. intros x T. apply told_more; [exact T|]. intros i u _. constructor; [|constructor]. split; [intros (? & [=])|cbn [snd]; discriminate].
Qed.
End Room.
