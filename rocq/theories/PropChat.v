(** The chat example: C65-C67, C75-C77, C79. *)
From Verif Require InnerHtml.
From Verif Require Import Base HMap Num Json DomModel DomSpec DomProofs DomProofs2 DomProofs3 DomProofs4 HtmlModel
  ClientModel ClientSpec ClientProofs ClientProofs2 ComponentModel JsonSpec JsonProofs ComponentSpec ComponentProofs ComponentProofs2 PropClient PropComponent
  ChatModel ChatSpec ChatProofs ChatProofs2 ChatProofs3.
From Verif Require WsModel.
From Coq Require Import Lia Permutation.

(* ------------------------------------------------------------------ *)
(** ** C65. Whatever the server has answered before, a registration is answered with an id nobody is registered
    under; it then is the id of the new user. *)
Theorem C65_fresh_ids : forall h s u p s' id u' msgs, serves h s -> handle s (RegisterNewUser u p) = Some (s', UserRegistered id u', msgs) ->
  (forall v q, ~ registered h id v q) /\ u' = u /\ msgs = [] /\ registered (h ++ [(RegisterNewUser u p, UserRegistered id u')]) id u p.
Proof. exact register_fresh. Qed.
Print Assumptions C65_fresh_ids.
(** Registration works while fewer than 2^64-1 users are registered. *)
Theorem C65_registration_works : forall h s u p, serves h s ->
  (forall l : list N, NoDup l -> (forall i, In i l -> exists v q, registered h i v q) -> (N.of_nat (length l) < 2 ^ 64 - 1)%N) ->
  exists s' id, handle s (RegisterNewUser u p) = Some (s', UserRegistered id u, []).
Proof. exact register_works. Qed.
Print Assumptions C65_registration_works.
(** An id is registered with at most one name and process. *)
Theorem C65_one_user_per_id : forall h s id u p v q, serves h s -> registered h id u p -> registered h id v q -> u = v /\ p = q.
Proof. intros h s id u p v q Hs H1 H2. apply (users_registered _ _ Hs) in H1, H2. rewrite H1 in H2. now injection H2. Qed.
Print Assumptions C65_one_user_per_id.

Definition some_history : history :=
  [(RegisterNewUser (bs "ann") 1, UserRegistered 0 (bs "ann")); (RegisterNewUser (bs "bob") 2, UserRegistered 1 (bs "bob"));
   (RemoveUser 0, Closed); (RegisterNewUser (bs "cid") 3, UserRegistered 0 (bs "cid")); (SetUsername 1 (bs "rob"), UpdatedUsername (bs "rob"))].
Lemma some_history_served : serves some_history (Server [(1%N, (bs "rob", 2%N)); (0%N, (bs "cid", 3%N))] (IdCreator [0; 1] [] 2)%N).
Proof.
  pose proof serves_init as H.
  eapply serves_step with (r := RegisterNewUser (bs "ann") 1) in H; [|reflexivity]. eapply serves_step with (r := RegisterNewUser (bs "bob") 2) in H; [|reflexivity].
  eapply serves_step with (r := RemoveUser 0) in H; [|reflexivity]. eapply serves_step with (r := RegisterNewUser (bs "cid") 3) in H; [|reflexivity].
  eapply serves_step with (r := SetUsername 1 (bs "rob")) in H; [|reflexivity]. exact H.
Qed.
Example C65_example : registered some_history 0 (bs "cid") 3 /\ registered some_history 1 (bs "rob") 2 /\ (forall u p, ~ registered some_history 2 u p).
Proof.
  pose proof (users_registered _ _ some_history_served) as H. split; [now apply H|]. split; [now apply H|]. intros u p Hr. apply H in Hr. discriminate.
Qed.

(* ------------------------------------------------------------------ *)
(** ** C66. A message of a registered user is sent once to the process of every other registered user, under the
    name the sender is registered with, and given back to the sender. *)
Theorem C66_message_reaches_everyone : forall h s id text u p, serves h s -> registered h id u p ->
  exists others, NoDup (map fst others) /\ (forall i v q, In (i, (v, q)) others <-> registered h i v q /\ i <> id) /\
    handle s (SendMessage id text) = Some (s, ReceiveMessage (ChatMessage id u text),
      map (fun o => (snd (snd o), ReceiveMessage (ChatMessage id u text))) others).
Proof. exact send_reaches. Qed.
Print Assumptions C66_message_reaches_everyone.
(** A message under an id nobody is registered with ends the server (and with it the whole chat). In the example
    as it is this does not happen, see C77. *)
Theorem C66_unregistered_sender_crashes : forall h s id text, serves h s -> (forall u p, ~ registered h id u p) -> handle s (SendMessage id text) = None.
Proof. exact send_unregistered. Qed.
Print Assumptions C66_unregistered_sender_crashes.
Example C66_example : exists s, serves some_history s /\
  handle s (SendMessage 1 (bs "hi")) = Some (s, ReceiveMessage (ChatMessage 1 (bs "rob") (bs "hi")), [(3%N, ReceiveMessage (ChatMessage 1 (bs "rob") (bs "hi")))]).
Proof. eexists. split; [apply some_history_served|reflexivity]. Qed.

(* ------------------------------------------------------------------ *)
(** ** C67. A client that keeps the tree and applies the changesets has, after every history of a chat process, the
    tree of the page of its state (as long as the node numbers fit a machine word). *)
Theorem C67_chat_in_sync : forall max e0 p ms ctx c dom ls out,
  main_loop chat_component tt true ((e0, WhoAmI p) :: ms) = (Looping ctx c dom ls, out) ->
  (7 + 3 * messages_shown c <= max + 1)%N ->
  (exists j, into_element (chat_page c) 0 = Some (dom, j)) /\
  exists d0 j0 oss, into_element (uninit_page []) 0 = Some (d0, j0) /\ out = wire (create_from_scratch d0 None) :: map wire oss /\
    forall x, view x d0 -> exists y, apply_all max oss x = Some y /\ view y dom.
Proof.
  intros max e0 p ms ctx c dom ls out H Hm.
  destruct (C63_client_in_sync max _ _ _ _ _ chat_component tt e0 p ms ctx c dom ls out H) as (R & c0 & d0 & l0 & cs & doms & H1 & H2 & H3 & H4 & H5).
  injection H1 as <-. rewrite chat_render in H2. injection H2 as <- <-. rewrite chat_render in R. injection R as <- <-.
  pose proof (chat_pages_eq _ _ H4) as ->. split; [eexists; apply chat_into|]. exists (chat_element chat_new), 5%N.
  destruct H5 as (oss & Ho & Ha).
  - destruct (chat_lives _ _ _ _ _ H3) as [_ Hl]. specialize (Hl max).
    assert (chat_size c <= max + 1)%N as Hc by (destruct c; cbn [chat_size messages_shown] in *; lia). specialize (Hl Hc). clear -Hl. change (chat_element chat_new) with (uninit_element []) in *. revert Hl. generalize (uninit_element []).
    induction (chat_pages cs) as [|d ds IH]; intros e; [easy|]. intros [(A & B & C) D]. split; [|now apply IH]. split; [exact A|]. split; [exact B|]. now apply safe_with_safe in C.
  - exists oss. split; [reflexivity|]. split; [exact Ho|exact Ha].
Qed.
Print Assumptions C67_chat_in_sync.

Definition chat_says (answer : option linput) (text : str) : option linput * mail linput N := (answer, Ws (inl (WsModel.Text text))).
Definition chat_session : list (option linput * mail linput N) :=
  [chat_says None (bs "{""listener"":""set_username"",""payload"":{""value"":""ann""}}");
   chat_says (Some (ReceiveMessage (ChatMessage 1 (bs "unused") []))) (bs "{""listener"":""submit_message""}");
   chat_says (Some (UserRegistered 4 (bs "ann"))) (bs "{""listener"":""initialize_username""}");
   (None, Input (ReceiveMessage (ChatMessage 2 (bs "bob") (bs "1+1?"))));
   chat_says None (bs "{""listener"":""update_message_contents"",""payload"":{""value"":""two""}}");
   chat_says (Some (ReceiveMessage (ChatMessage 4 (bs "ann") (bs "two")))) (bs "{""listener"":""submit_message""}")].
Definition chat_session_end : chat :=
  Initialized (bs "ann") 4 [ChatMessage 2 (bs "bob") (bs "1+1?"); ChatMessage 4 (bs "ann") (bs "two")] (bs "two").
Example C67_example : exists dom ls out, main_loop chat_component tt true ((None, WhoAmI 9%N) :: chat_session) = (Looping 9%N chat_session_end dom ls, out) /\
  (7 + 3 * messages_shown chat_session_end <= 2 ^ 32)%N /\ length out = 6.
Proof. eexists _, _, _. split; [vm_compute; reflexivity|]. split; vm_compute; [discriminate|reflexivity]. Qed.

(* ------------------------------------------------------------------ *)
(** ** C75. The same for the browser, if no value with a "+" has been typed: its document shows the page of the
    component's state, and every listener of that document makes the component process ask for the input the page
    has for it. *)
Theorem C75_chat_in_browser_partial : forall reparse, InnerHtml.standard reparse ->
  forall e0 p ms ctx c dom ls out, main_loop chat_component tt true ((e0, WhoAmI p) :: ms) = (Looping ctx c dom ls, out) ->
  Forall (fun em => typed_plainly (snd em) /\ forall r, fst em <> Some (BrowserRequest r)) ms ->
  exists j y, into_element (chat_page c) 0 = Some (dom, j) /\ browse reparse out [] = ([y], true) /\ shows y dom /\
    forall ev name, listening y (ev, name) -> exists h, get name (chat_listeners c) = Some h /\ event_of h = ev /\
      forall value, exists text, js_event ev name value = Some text /\ asks (chat_listeners c) (@Ws linput N (inl (WsModel.Text text))) (input_for h value).
Proof.
  intros reparse Hre e0 p ms ctx c dom ls out H F.
  destruct (C63_browser_in_sync reparse Hre _ _ _ _ _ chat_component tt e0 p ms ctx c dom ls out H) as (R & c0 & d0 & l0 & cs & doms & H1 & H2 & H3 & H4 & H5).
  injection H1 as <-. rewrite chat_render in H2. injection H2 as <- <-. rewrite chat_render in R. injection R as <- <-.
  pose proof (chat_pages_eq _ _ H4) as ->.
  assert (field_plain chat_new) as P0 by (now intros []). pose proof (chat_lives_plain _ _ _ _ _ H3 P0 F) as Fc.
  destruct H5 as (y & Hy & V).
  - assert (forall c, field_plain c -> every (fun e => hm_wf (el_attrs e)) (chat_element c) /\ clean (chat_element c)) as Hc.
    { intros c1 Hc1. split; [|now apply chat_clean]. apply (proper_wf (chat_size c1)). apply chat_proper. lia. }
    constructor; [exact (Hc chat_new P0)|]. apply Forall_forall. intros d Hd. apply in_map_iff in Hd as (c1 & <- & Hd). apply Hc. rewrite Forall_forall in Fc. auto.
  - apply (numbered_range _ _ _ (proj1 (chat_numbered chat_new))).
  - destruct (chat_lives _ _ _ _ _ H3) as [_ Hl]. specialize (Hl (chat_size c)). assert (chat_size c <= chat_size c + 1)%N as Hc by lia. specialize (Hl Hc).
    clear -Hl. change (chat_element chat_new) with (uninit_element []) in *. revert Hl. generalize (uninit_element []). induction (chat_pages cs) as [|d ds IH]; intros e; [easy|]. intros [(_ & _ & C) D]. split; [exact C|now apply IH].
  - exists (chat_size c), y. split; [apply chat_into|]. split; [exact Hy|]. split; [exact V|]. intros ev name L.
    exact (C72_events_arrive linput N (chat_listeners c) y (chat_element c) V (chat_wired c) ev name L).
Qed.
Print Assumptions C75_chat_in_browser_partial.

Example C75_example : exists y dom ls out, main_loop chat_component tt true ((None, WhoAmI 9%N) :: chat_session) = (Looping 9%N chat_session_end dom ls, out) /\
  Forall (fun em => typed_plainly (snd em) /\ forall r, fst em <> Some (BrowserRequest r)) chat_session /\
  browse InnerHtml.plain_browser out [] = ([y], true) /\ y = paint dom.
Proof.
  eexists _, _, _, _. split; [vm_compute; reflexivity|]. split; [|split; vm_compute; reflexivity].
  assert (forall a text, (forall r, a <> Some (BrowserRequest r)) -> match client_message text with Some (_, Some v) => plus_freeb v | _ => true end = true ->
    typed_plainly (snd (chat_says a text)) /\ forall r, fst (chat_says a text) <> Some (BrowserRequest r)) as K.
  { intros a text Ha Ht. split; [|exact Ha]. cbn. intros name v E. apply says_iff in E. rewrite E in Ht. now apply plus_freeb_ok. }
  repeat (apply Forall_cons; [first [apply K; [discriminate|vm_compute; reflexivity]|split; [exact Logic.I|discriminate]]|]). constructor.
Qed.

(** With a "+" it fails: the field shows what is typed up to the "+" only, whatever the browser does when it parses
    markup. *)
Lemma shows_inv n m l kids e : shows (Elem n m l kids) e -> text_of (el_text e) = [] ->
  Forall2 shows kids (el_children e) /\ (forall q, q <> attr_id -> get q m = get q (el_attrs e)).
Proof. intros H. inversion H as [? ? ? ? ? t ? ? kk H1 H2 H3]; subst. cbn [el_text]. intros ->. now split. Qed.
Theorem C75_plus_typed_refuted : exists ms c dom ls out, main_loop chat_component tt true ((None, WhoAmI 9%N) :: ms) = (Looping 9%N c dom ls, out) /\
  Forall ordinary ms /\ (exists v, c = Uninitialized v /\ In plus v) /\
  forall reparse, exists y, browse reparse out [] = ([y], true) /\ ~ shows y dom.
Proof.
  exists [chat_says None (bs "{""listener"":""set_username"",""payload"":{""value"":""a+b""}}")]. eexists _, _, _, _. split; [vm_compute; reflexivity|].
  split. { constructor; [|constructor]. unfold ordinary. cbn [snd fst chat_says]. intros name payload E. apply says_iff in E. vm_compute in E. injection E as <- <-. split; vm_compute; discriminate. }
  split; [eexists; split; [reflexivity|]; vm_compute; tauto|]. intros reparse. eexists. split; [vm_compute; reflexivity|].
  intros H. apply shows_inv in H as [H _]; [|reflexivity]. cbn [el_children] in H. inversion H as [|? ? ? ? H1 _]; subst.
  apply shows_inv in H1 as [H1 _]; [|reflexivity]. cbn [el_children] in H1. inversion H1 as [|? ? ? ? H2 _]; subst.
  apply shows_inv in H2 as [_ H2]; [|reflexivity]. specialize (H2 (bs "value")). vm_compute in H2.
  discriminate H2. discriminate.
Qed.
Print Assumptions C75_plus_typed_refuted.

(* ------------------------------------------------------------------ *)
(** ** C76. No unreachable!() and no failing comparison in a chat process: whatever text the browser sends, in
    whatever order. *)
Theorem C76_chat_never_panics : forall p e0 ms, Forall ordinary ms -> Forall (fun em => ~ identity (snd em)) ms ->
  fst (main_loop chat_component tt true ((e0, WhoAmI p) :: ms)) <> Panicked.
Proof. intros p. apply (C61_never_panics _ _ _ _ _ chat_component tt p (fun _ => True) ordinary). apply chat_sound. Qed.
Print Assumptions C76_chat_never_panics.
Example C76_example : Forall ordinary chat_session /\ Forall (fun em => ~ identity (snd em)) chat_session.
Proof.
  split.
  - assert (forall a text, match client_message text with
        | Some (n, _) => (str_eqb n (bs "initialize_username") = false \/ exists id u, a = Some (UserRegistered id u)) /\
                         (str_eqb n (bs "submit_message") = false \/ exists m, a = Some (ReceiveMessage m)) | None => True end -> ordinary (chat_says a text)) as K.
    { intros a text H. unfold ordinary. cbn [snd fst chat_says]. intros n q E. apply says_iff in E. rewrite E in H. destruct H as [[H1|H1] [H2|H2]]; split; auto; intros ->;
        try (rewrite str_eqb_refl in H1); try (rewrite str_eqb_refl in H2); discriminate. }
    unfold chat_session. repeat (apply Forall_cons; [first [apply K; vm_compute; split; first [left; reflexivity|right; repeat eexists]|unfold ordinary; cbn [snd]; eexists; reflexivity]|]). constructor.
  - repeat (apply Forall_cons; [intros (p & [=])|]). constructor.
Qed.
(** A second registration of the same process, or a name change before the first, would end it. *)
Theorem C76_other_inputs_crash : exists e0 i1 i2 p,
  (forall m, i1 <> ReceiveMessage m) /\ (forall m, i2 <> ReceiveMessage m) /\
  fst (main_loop chat_component tt true [(e0, WhoAmI p); (None, Input i1)]) = Panicked /\
  fst (main_loop chat_component tt true [(e0, WhoAmI p); (None, Input i2); (None, Input i2)]) = Panicked.
Proof. exists None, (UpdatedUsername (bs "x")), (UserRegistered 1 (bs "y")), 3%N. repeat split; try discriminate; vm_compute; reflexivity. Qed.
Print Assumptions C76_other_inputs_crash.

(* ------------------------------------------------------------------ *)
(** ** C77. The whole chat, with any number of sessions (up to 2^64-1) opening, typing, sending and closing in any
    order: no step crashes the server or a component. *)
Theorem C77_no_crash : forall h w, world_reachable h w -> (N.of_nat (length (w_sessions w)) <= 2 ^ 64 - 1)%N ->
  forall r, world_step w r -> exists w' h', r = inr (w', h').
Proof.
  intros h w R Hl r S. change (2 ^ 64 - 1)%N with u64_max in Hl. pose proof (world_step_inv _ _ _ (world_inv _ _ R) S) as H. destruct r as [e|[w' h']]; [lia|eauto].
Qed.
Print Assumptions C77_no_crash.
(** The registered users are exactly the sessions that have joined. *)
Theorem C77_users_are_sessions : forall h w, world_reachable h w -> forall id u p,
  registered h id u p <-> exists ms comp box, In (Session p (Initialized u id ms comp) box) (w_sessions w).
Proof.
  intros h w R id u p. destruct (world_inv _ _ R) as (S1 & _ & F & U). rewrite <- (users_registered _ _ S1). split.
  - intros H. destruct (U _ _ _ H) as ([q [v|v i ms comp] box] & Hi & Hp & Hu); [discriminate|]. cbn in Hp. injection Hu as -> ->. subst q. now exists ms, comp, box.
  - intros (ms & comp & box & Hi). rewrite Forall_forall in F. apply F in Hi as (_ & H & _). exact H.
Qed.
Print Assumptions C77_users_are_sessions.

(* ------------------------------------------------------------------ *)
(** ** C79. A session that has joined shows or is about to show every message said since, each as often as it was
    said. *)
Theorem C79_same_messages_partial : forall h w, world_reachable h w -> forall p u id ms comp box,
  In (Session p (Initialized u id ms comp) box) (w_sessions w) ->
  Forall from_server box /\ exists h2, since_joining h p id u h2 /\ Permutation (ms ++ pending box) (said h2).
Proof.
  intros h w R p u id ms comp box Hi. destruct (world_inv _ _ R) as (_ & _ & F & _). rewrite Forall_forall in F. destruct (F _ Hi) as (B & _ & h2 & H1 & H2 & _). split; [exact B|]. exists h2. split; [exact H1|exact H2].
Qed.
Print Assumptions C79_same_messages_partial.
(** What order there is: a session shows its own messages in the order it sent them, all of them, and the messages
    of the others in the order in which the server took them — a first part of them, and the rest, in that order, is
    on its way.  Only where its own messages stand among those of the others differs from session to session. *)
Theorem C79_order : forall h w, world_reachable h w -> forall p u id ms comp box,
  In (Session p (Initialized u id ms comp) box) (w_sessions w) ->
  exists h2, since_joining h p id u h2 /\ said_by id ms = said_by id (said h2) /\
    said_by_others id ms ++ pending box = said_by_others id (said h2).
Proof.
  intros h w R p u id ms comp box Hi. destruct (world_inv _ _ R) as (_ & _ & F & _). rewrite Forall_forall in F. destruct (F _ Hi) as (_ & _ & h2 & H1 & _ & _ & H2 & H3). eauto.
Qed.
Print Assumptions C79_order.

(** A chat with two sessions, from the clicks to the states. *)
Definition click (name : str) : str := bs "{""listener"":""" ++ name ++ bs """}".
Lemma clicks name call ls : client_message (click name) = Some (name, None) -> get name ls = Some (OnClick call) ->
  asks ls (@Ws linput N (inl (WsModel.Text (click name)))) call.
Proof. intros H G. eapply asks_click; [apply says_iff; eauto|eauto]. Qed.
Lemma wr_browser h w l1 s l2 text i w' s' msgs hh : world_reachable h (World w (l1 ++ s :: l2)) ->
  asks (chat_listeners (s_chat s)) (@Ws linput N (inl (WsModel.Text text))) i -> handle_input w s i = inr (w', s', msgs, hh) ->
  world_reachable (h ++ hh) (World w' (deliver_all msgs (l1 ++ s' :: l2))).
Proof. intros R A E. eapply wr_step; [exact R|]. exact (w_browser w l1 s l2 text i _ A E). Qed.
Lemma wr_box h w l1 p c i box l2 w' s' msgs hh : world_reachable h (World w (l1 ++ Session p c (i :: box) :: l2)) ->
  handle_input w (Session p c box) i = inr (w', s', msgs, hh) ->
  world_reachable (h ++ hh) (World w' (deliver_all msgs (l1 ++ s' :: l2))).
Proof. intros R E. eapply wr_step; [exact R|]. exact (w_input w l1 p c i box l2 _ E). Qed.
Definition two_sessions (ms1 : list chat_message) (box1 : list linput) (ms2 : list chat_message) (box2 : list linput) : world :=
  World (Server [(0%N, ([], 1%N)); (1%N, ([], 2%N))] (IdCreator [1; 0] [] 2)%N)
    [Session 1 (Initialized [] 0 ms1 []) box1; Session 2 (Initialized [] 1 ms2 []) box2].
Lemma two_joined : exists h, world_reachable h (two_sessions [] [] [] []).
Proof.
  pose proof wr_init as R. unfold world_init in R.
  eapply wr_step in R; [|apply (w_open _ _ 1%N); intros []]. eapply wr_step in R; [|apply (w_open _ _ 2%N); intros [[=]|[]]].
  cbn [app] in R. 
  eapply (wr_browser _ _ [] _ [_]) in R; [|apply (clicks (bs "initialize_username")); vm_compute; reflexivity|vm_compute; reflexivity].
  eapply (wr_browser _ _ [_] _ []) in R; [|apply (clicks (bs "initialize_username")); vm_compute; reflexivity|vm_compute; reflexivity].
  eexists. exact R.
Qed.
(** But not in the same order (this is also the non-trivial case of [C79_order]: each list holds an own and a foreign
    message): two users who write at the same time see the two messages in different orders, for
    good. *)
Theorem C79_same_order_refuted : exists h w p1 p2 u1 u2 ms1 ms2 comp1 comp2 id1 id2, world_reachable h w /\
  w_sessions w = [Session p1 (Initialized u1 id1 ms1 comp1) []; Session p2 (Initialized u2 id2 ms2 comp2) []] /\
  Permutation ms1 ms2 /\ ms1 = rev ms2 /\ ms1 <> ms2.
Proof.
  destruct two_joined as [h R]. unfold two_sessions in R.
  eapply (wr_browser _ _ [_] _ []) in R; [|apply (clicks (bs "submit_message")); vm_compute; reflexivity|vm_compute; reflexivity].
  cbv [deliver_all deliver fold_left map app s_self s_chat s_box fst snd N.eqb Pos.eqb] in R.
  eapply (wr_browser _ _ [] _ [_]) in R; [|apply (clicks (bs "submit_message")); vm_compute; reflexivity|vm_compute; reflexivity].
  cbv [deliver_all deliver fold_left map app s_self s_chat s_box fst snd N.eqb Pos.eqb] in R.
  eapply (wr_box _ _ [] _ _ _ _ [_]) in R; [|vm_compute; reflexivity]. cbv [deliver_all fold_left app] in R.
  eapply (wr_box _ _ [_] _ _ _ _ []) in R; [|vm_compute; reflexivity]. cbv [deliver_all fold_left app] in R.
  do 12 eexists. split; [exact R|]. split; [reflexivity|]. split; [apply perm_swap|]. split; [reflexivity|discriminate].
Qed.
Print Assumptions C79_same_order_refuted.
Example C77_example : exists h, world_reachable h (two_sessions [] [] [] []) /\ registered h 1 [] 2.
Proof.
  destruct two_joined as [h R]. exists h. split; [exact R|]. apply (C77_users_are_sessions _ _ R). exists [], [], []. right. now left.
Qed.
