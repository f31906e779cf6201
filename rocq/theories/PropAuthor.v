(** C116: whom the chat names as the author of a message. *)
From Verif Require Import Base HMap Num Json DomModel ClientModel ClientSpec ComponentModel JsonSpec JsonProofs ComponentSpec ComponentProofs ComponentProofs2
  ChatModel ChatSpec ChatProofs ChatProofs2 ChatProofs3 UserModel DeskSpec DeskProofs DeskProofs3 DeskProofs4 PropDesk RoomSpec RoomProofs RoomProofs2 RoomProofs3 PropChat PropRoom.
From Verif Require WsModel InnerHtml.
From Coq Require Import Lia.

(** What every request in the record goes by. *)
Definition lawful_entry (a : record) (x : N * (creq * linput)) : Prop :=
  (forall m, snd (snd x) = ReceiveMessage m -> fst (snd x) = SendMessage (cm_sender m) (cm_contents m) /\ registered (map snd a) (cm_sender m) (cm_username m) (fst x)) /\
  (forall id, fst (snd x) = RemoveUser id -> exists u, registered (map snd a) id u (fst x)) /\
  (forall id u, snd (snd x) = UserRegistered id u -> fst (snd x) = RegisterNewUser u (fst x) /\ forall v p, ~ registered (map snd a) id v p) /\
  (forall id u, fst (snd x) <> SetUsername id u).
Definition lawful (h : record) : Prop := forall a x b, h = a ++ x :: b -> lawful_entry a x.
Lemma lawful_snoc h x : lawful h -> lawful_entry h x -> lawful (h ++ [x]).
Proof.
  intros L E a y b H. destruct (exists_last (l := y :: b)) as (b' & z & Eb); [discriminate|]. rewrite Eb, app_assoc in H. apply app_inj_tail in H as [H ->].
  destruct b' as [|y' b']; cbn [app] in Eb; injection Eb as -> Eb.
  - rewrite app_nil_r in H. now subst.
  - exact (L a y' b' H).
Qed.

Section Room.
Context (reparse : str -> str -> list node -> list node) (Hre : InnerHtml.standard reparse).
Lemma lawful_input h w l1 p c box0 box l2 i w' s' msgs hh : winv (map snd h) (World w (l1 ++ Session p c box0 :: l2)) ->
  ((exists m, i = ReceiveMessage m) \/ exists r, i = BrowserRequest r) -> handle_input w (Session p c box) i = inr (w', s', msgs, hh) ->
  lawful h -> lawful (h ++ map (pair p) hh).
Proof.
  intros W Hi H L. pose proof W as (Sv & _ & Fs & _). cbn [w_server w_sessions] in Sv, Fs. unfold handle_input in H. cbn [s_chat s_self s_box] in H.
  destruct c as [u|u id ml comp], i as [|v|m|[| | |]|]; cbn [chat_request] in H; try (destruct Hi as [(? & [=])|(? & [=])]); cbn [chat_update chat_update1] in H; try discriminate H;
    try (injection H as _ _ _ <-; cbn [map]; rewrite app_nil_r; exact L).
  - destruct (handle w (RegisterNewUser u p)) as [[[w1 res] ms1]|] eqn:Eh; [|discriminate].
    assert (exists id, res = UserRegistered id u) as (id & ->). { cbn [handle] in Eh. destruct (get_id (id_gen w)) as [[id g]|]; [|discriminate]. injection Eh as _ <- _. eauto. }
    injection H as _ _ _ <-. cbn [map]. apply lawful_snoc; [exact L|]. destruct (register_fresh _ _ _ _ _ _ _ _ Sv Eh) as (Hf & _). split; [cbn [fst snd]; discriminate|]. split; [cbn [fst snd]; discriminate|]. split; [|cbn [fst snd]; discriminate].
    cbn [fst snd]. intros id' u' [= <- <-]. split; [reflexivity|exact Hf].
  - destruct (winv_send _ _ _ _ _ _ _ _ _ _ W) as (E & _). rewrite E in H. injection H as _ _ _ <-. cbn [map]. apply lawful_snoc; [exact L|].
    rewrite Forall_forall in Fs. destruct (Fs (Session p (Initialized u id ml comp) box0)) as [_ G]; [apply in_app_iff; right; now left|]. cbn [user_of s_chat s_self] in G. destruct G as [G _].
    split; [|split; [cbn [fst snd]; discriminate|split; [cbn [fst snd]; discriminate|cbn [fst snd]; discriminate]]].
    cbn [fst snd]. intros m [= <-]. cbn [cm_sender cm_username cm_contents]. split; [reflexivity|]. now apply (users_registered _ _ Sv).
Qed.
Theorem room_lawful h o : room_reachable reparse h o -> lawful h.
Proof.
  induction 1 as [|h o h' o' R IH St]; [intros [|? ?] x b [=]|]. pose proof (room_inv reparse Hre _ _ R) as (W & _).
  destruct St as [w l g p Hp|w l1 s k k' l2 g Hh|w l1 s k l2 g text i w' s' msgs hh l' Ht Ha Hi Hs|w l1 s k l2 g text Ht Ha|w l1 p c i box k l2 g w' s' msgs hh l' Hi Hs|w l1 s k l2 g Hd|w l1 s k l2 g r w' res msgs l' Hd Hr Hs]; cbn [o_server o_open] in W; rewrite ?app_nil_r; try exact IH;
    rewrite map_app in W; cbn [map t_session] in W; apply world_inv in W.
  - destruct s as [p c box]. exact (lawful_input _ _ _ _ _ _ _ _ _ _ _ _ _ W (or_intror (text_request _ _ _ Ha)) Hi IH).
  - refine (lawful_input _ _ _ _ _ _ _ _ _ _ _ _ _ W (or_introl _) Hi IH). destruct W as (_ & _ & F & _). cbn [w_sessions] in F. rewrite Forall_forall in F. destruct (F (Session p c (i :: box))) as [B _]; [apply in_app_iff; right; now left|]. cbn [s_box] in B. now inversion B.
  - apply lawful_snoc; [exact IH|]. destruct s as [p [u|u id ml comp] box]; [discriminate Hd|]. injection Hd as <-. cbn [handle] in Hr. injection Hr as _ <- _. destruct W as (Sv & _ & Fs & _). cbn [w_server w_sessions] in Sv, Fs.
    rewrite Forall_forall in Fs. destruct (Fs (Session p (Initialized u id ml comp) box)) as [_ G]; [apply in_app_iff; right; now left|]. cbn [user_of s_chat s_self] in G. destruct G as [G _].
    split; [cbn [fst snd]; discriminate|]. split; [|split; [cbn [fst snd]; discriminate|cbn [fst snd]; discriminate]]. cbn [fst snd s_self]. intros i [= <-]. exists u. now apply (users_registered _ _ Sv).
Qed.
End Room.

Lemma registered_snoc h x id u p : registered (h ++ [x]) id u p ->
  x = (RegisterNewUser u p, UserRegistered id u) \/ (exists u0 res, x = (SetUsername id u, res) /\ registered h id u0 p) \/ (registered h id u p /\ ~ concerns id x).
Proof.
  intros H. inversion H as [h0 u1 p1 id1 E1 E2 E3 E4|h0 id1 u0 u1 p1 res H0 E1 E2 E3 E4|h0 x0 id1 u1 p1 H0 H1 E1 E2 E3 E4]; apply app_inj_tail in E1 as [-> <-]; subst id1 u1 p1.
  - now left.
  - right. left. exists u0, res. auto.
  - right. right. auto.
Qed.
Lemma registered_nil id u p : ~ registered [] id u p.
Proof. intros H. inversion H as [h0 ? ? ? E1|h0 ? ? ? ? ? ? E1|h0 ? ? ? ? ? ? E1]; now destruct h0. Qed.
Lemma registered_fun h id u p v q : registered h id u p -> registered h id v q -> u = v /\ p = q.
Proof.
  revert u p v q. induction h as [|x h IH] using rev_ind; intros u p v q H1 H2; [destruct (registered_nil _ _ _ H1)|].
  apply registered_snoc in H1, H2. destruct H1 as [E1|[(u0 & r1 & E1 & H1)|[H1 N1]]], H2 as [E2|[(v0 & r2 & E2 & H2)|[H2 N2]]]; subst.
  - now injection E2 as <- <-.
  - discriminate.
  - destruct N2. right. right. exists u. reflexivity.
  - discriminate.
  - injection E2 as <- _. split; [reflexivity|]. exact (proj2 (IH _ _ _ _ H1 H2)).
  - destruct N2. right. left. now exists u.
  - destruct N1. right. right. exists v. reflexivity.
  - destruct N1. right. left. now exists v.
  - exact (IH _ _ _ _ H1 H2).
Qed.
Lemma lawful_before a b : lawful (a ++ b) -> lawful a.
Proof. intros L a0 x b0 ->. apply (L a0 x (b0 ++ b)). now rewrite <- app_assoc. Qed.
(** Someone registered under an id stays so until a request to remove it, which only they make. *)
Lemma stays a id u p : forall b, lawful (a ++ b) -> registered (map snd a) id u p ->
  registered (map snd (a ++ b)) id u p \/ exists b1 res b2, b = b1 ++ (p, (RemoveUser id, res)) :: b2.
Proof.
  induction b as [|[x [r res]] b IH] using rev_ind; intros L R; [rewrite app_nil_r; now left|]. rewrite app_assoc in *.
  destruct (IH (lawful_before _ _ L) R) as [H|(b1 & r1 & b2 & ->)]; [|right; exists b1, r1, (b2 ++ [(x, (r, res))]); now rewrite <- app_assoc].
  destruct (L (a ++ b) (x, (r, res)) [] eq_refl) as (L1 & L2 & L3 & L4). cbn [fst snd] in *.
  rewrite map_app. cbn [map snd].
  assert (r = RemoveUser id \/ r <> RemoveUser id) as [->|Hr] by (destruct r as [| | |j]; try (right; discriminate); destruct (N.eq_dec j id) as [->|]; [now left|right; congruence]).
  - destruct (L2 id eq_refl) as (v & Hv). destruct (registered_fun _ _ _ _ _ _ H Hv) as [_ <-]. right. now exists b, res, [].
  - left. apply reg_keep; [exact H|]. intros [E|[(v & E)|(v & E)]]; cbn [fst snd] in E; [congruence|exact (L4 _ _ E)|]. destruct (L3 _ _ E) as [_ N]. exact (N _ _ H).
Qed.
(** Who is registered under an id was so before, or has registered since. *)
Lemma came_from a id u p : forall b, lawful (a ++ b) -> registered (map snd (a ++ b)) id u p ->
  registered (map snd a) id u p \/ exists b1 b2, b = b1 ++ (p, (RegisterNewUser u p, UserRegistered id u)) :: b2.
Proof.
  induction b as [|[x [r res]] b IH] using rev_ind; intros L R; [rewrite app_nil_r in R; now left|]. rewrite app_assoc in *. destruct (L (a ++ b) (x, (r, res)) [] eq_refl) as (L1 & L2 & L3 & L4). cbn [fst snd] in *.
  rewrite map_app in R. cbn [map snd] in R. apply registered_snoc in R as [E|[(u0 & r1 & E & _)|[R _]]].
  - injection E as -> ->. destruct (L3 _ _ eq_refl) as [E _]. injection E as ->. right. now exists b, [].
  - injection E as -> _. now destruct (L4 id u).
  - destruct (IH (lawful_before _ _ L) R) as [H|(b1 & b2 & ->)]; [now left|]. right. exists b1, (b2 ++ [(x, (r, res))]). now rewrite <- app_assoc.
Qed.
Lemma removed_none (a : record) x id res u p : ~ registered (map snd (a ++ [(x, (RemoveUser id, res))])) id u p.
Proof. rewrite map_app. cbn [map snd]. intros H. apply registered_snoc in H as [[=]|[(u0 & r1 & [=] & _)|[_ N]]]. apply N. now left. Qed.

(** When a message is given out, the user id on it is that of the session whose user sent it, the name is the one that
    session registered, and no other session has that id then. *)
Theorem C116_named_when_said_partial : forall reparse, InnerHtml.standard reparse -> forall h o a q r m b, room_reachable reparse h o ->
  h = a ++ (q, (r, ReceiveMessage m)) :: b ->
  registered (map snd a) (cm_sender m) (cm_username m) q /\ forall u p, registered (map snd a) (cm_sender m) u p -> u = cm_username m /\ p = q.
Proof.
  intros reparse Hre h o a q r m b R ->. destruct (room_lawful reparse Hre _ _ R a _ b eq_refl) as (H & _). specialize (H m eq_refl). cbn [fst] in H. destruct H as [_ H]. split; [exact H|]. intros u p Hu. exact (registered_fun _ _ _ _ _ _ Hu H).
Qed.
Print Assumptions C116_named_when_said_partial.
(** Two messages with the same user id are from the same session, or the first one left and the second one joined in
    between. *)
Theorem C116_same_id_partial : forall reparse, InnerHtml.standard reparse -> forall h o a p r m b q r' m' c, room_reachable reparse h o ->
  h = a ++ (p, (r, ReceiveMessage m)) :: b ++ (q, (r', ReceiveMessage m')) :: c -> cm_sender m = cm_sender m' ->
  (p = q /\ cm_username m = cm_username m') \/
  exists b1 res b2 b3, b = b1 ++ (p, (RemoveUser (cm_sender m), res)) :: b2 ++ (q, (RegisterNewUser (cm_username m') q, UserRegistered (cm_sender m) (cm_username m'))) :: b3.
Proof.
  intros reparse Hre h o a p r m b q r' m' c R Eh Es. pose proof (room_lawful reparse Hre _ _ R) as L. subst h.
  destruct (L a _ _ eq_refl) as (H1 & _). specialize (H1 m eq_refl). cbn [fst snd] in H1. destruct H1 as [-> H1].
  assert (registered (map snd (a ++ [(p, (SendMessage (cm_sender m) (cm_contents m), ReceiveMessage m))])) (cm_sender m) (cm_username m) p) as H2.
  { destruct (stays a _ _ _ [(p, (SendMessage (cm_sender m) (cm_contents m), ReceiveMessage m))] ltac:(eapply lawful_before; rewrite <- app_assoc; exact L) H1) as [H|([|? b1] & res & b2 & E)]; [exact H|discriminate E|destruct b1; discriminate E]. }
  change (a ++ (p, (SendMessage (cm_sender m) (cm_contents m), ReceiveMessage m)) :: b ++ (q, (r', ReceiveMessage m')) :: c) with (a ++ [(p, (SendMessage (cm_sender m) (cm_contents m), ReceiveMessage m))] ++ b ++ (q, (r', ReceiveMessage m')) :: c) in L. rewrite app_assoc in L. set (a1 := a ++ [(p, (SendMessage (cm_sender m) (cm_contents m), ReceiveMessage m))]) in *. clearbody a1. rewrite app_assoc in L.
  destruct (L (a1 ++ b) _ c eq_refl) as (H3 & _). specialize (H3 m' eq_refl). cbn [fst] in H3. destruct H3 as [_ H3]. rewrite <- Es in H3. apply lawful_before in L.
  destruct (stays a1 _ _ _ b L H2) as [H4|(b1 & res & b2 & ->)].
  - left. destruct (registered_fun _ _ _ _ _ _ H4 H3) as [-> ->]. auto.
  - right. change (b1 ++ (p, (RemoveUser (cm_sender m), res)) :: b2) with (b1 ++ [(p, (RemoveUser (cm_sender m), res))] ++ b2) in *. rewrite !app_assoc in L, H3.
    destruct (came_from _ _ _ _ b2 L H3) as [H|(b3 & b4 & ->)]; [destruct (removed_none _ _ _ _ _ _ H)|]. exists b1, res, b3, b4. reflexivity.
Qed.
Print Assumptions C116_same_id_partial.

(** But what the page says does not tell the authors apart: ann leaves, somebody else takes her name and is given her id. *)
Definition two_anns : list turn :=
  [TEnter 11; TEnter 12] ++ joins 0 (bs "cat") ++ joins 1 (bs "ann") ++ writes 1 (bs "hello") ++ [TText 1; TText 1; TInput 0; TDoes 0 DRead; TLeave 1; TEnter 13] ++ joins 1 (bs "ann") ++
  writes 1 (bs "hello") ++ [TText 1; TText 1; TInput 0; TDoes 0 DRead].
Theorem C116_rows_name_their_authors_refuted : exists h o x y z comp m, room_reachable InnerHtml.plain_browser h o /\ o_open o = [y; z] /\ o_gone o = [x] /\ t_self x <> t_self z /\
  s_chat (t_session y) = Initialized (bs "cat") 0 [m; m] comp /\ k_read (t_desk y) = length (snd (chat_process (t_self y) (k_ms (t_desk y)))) /\
  screen_rows (k_doc (t_desk y)) = [row_of m; row_of m] /\ said_at (t_self x) h = [m] /\ said_at (t_self z) h = [m].
Proof.
  destruct (turns two_anns [] (Room server_init [] [])) as [[h o]|] eqn:E; [|vm_compute in E; discriminate].
  pose proof (turns_ok _ _ _ _ _ E (o_start _)) as R. vm_compute in E. injection E as <- <-. do 7 eexists. split; [exact R|]. repeat split; try (vm_compute; reflexivity); vm_compute; discriminate.
Qed.
Print Assumptions C116_rows_name_their_authors_refuted.
(** Not vacuous: that session meets the hypotheses of both theorems, with two authors. *)
Example C116_example : exists h o a r r' m b c, room_reachable InnerHtml.plain_browser h o /\
  h = a ++ (12%N, (r, ReceiveMessage m)) :: b ++ (13%N, (r', ReceiveMessage m)) :: c /\ m = ChatMessage 1 (bs "ann") (bs "hello") /\ length a = 2 /\ length b = 2.
Proof.
  destruct (turns two_anns [] (Room server_init [] [])) as [[h o]|] eqn:E; [|vm_compute in E; discriminate].
  pose proof (turns_ok _ _ _ _ _ E (o_start _)) as R. vm_compute in E. injection E as <- <-. eexists _, _, [_; _], _, _, _, [_; _], []. split; [exact R|]. split; [reflexivity|]. repeat split; vm_compute; reflexivity.
Qed.
