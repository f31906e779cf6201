(** The whole chat with its users, from the keyboards to the screens: C114. *)
From Verif Require Import Base HMap Num Json DomModel ClientModel ClientSpec ComponentModel JsonSpec JsonProofs ComponentSpec ComponentProofs ComponentProofs2
  ChatModel ChatSpec ChatProofs ChatProofs2 ChatProofs3 UserModel DeskSpec DeskProofs DeskProofs2 DeskProofs3 DeskProofs4 PropDesk RoomSpec RoomProofs RoomProofs2 RoomProofs3 PropChat.
From Verif Require WsModel InnerHtml.
From Coq Require Import Lia.

Lemma said_at_made p h : said_at p h = said (made p h).
Proof. reflexivity. Qed.
Lemma said_at_app p a b : said_at p (a ++ b) = said_at p a ++ said_at p b.
Proof. rewrite !said_at_made, made_app. apply said_app. Qed.

(** What is on the screen when the page of a joined session is displayed. *)
Lemma leaf_words n i nm a t k : displays (erase n) (Element i nm a [] [] (Some t) k) -> words n = t.
Proof.
  intros D. apply displays_open_text in D as (m & ty & tk & vk & -> & _ & _ & Ht & F). inversion F; subst. rewrite app_nil_r. cbn [words]. cbn [text_of] in Ht.
  destruct t as [|b t]; cbn [text_nodes] in Ht; [apply map_eq_nil in Ht as ->; reflexivity|]. destruct tk as [|[s|] [|? ?]]; try discriminate. injection Ht as ->. cbn [flat_map words]. now rewrite app_nil_r.
Qed.
Lemma shown_rows n u id ms comp : displays (erase n) (init_element u id ms comp) ->
  screen_rows [n] = map row_of ms /\ exists rest, screen_top [n] = bs "Hello " ++ u ++ bs " (user_id: " ++ dec id ++ bs ")!" ++ rest.
Proof.
  unfold init_element. intros D. apply displays_open in D as (m0 & t0 & k0 & -> & _ & _ & F0). inversion F0 as [|v1 ? rows ? D1 FR]; subst. unfold screen_rows, screen_top. cbn [flat_map parts app tl firstn]. rewrite !app_nil_r. split.
  - clear F0 D1. revert rows FR. generalize 7%N. induction ms as [|m ms IH]; intros i rows FR; cbn [row_elements] in FR; inversion FR as [|r ? rows' ? Dr FR']; subst; [reflexivity|].
    apply displays_open in Dr as (mr & tr & kr & -> & _ & _ & Fr). inversion Fr as [|a ? ? ? Da Fb]; subst. inversion Fb as [|b ? ? ? Db Fc]; subst. inversion Fc; subst.
    cbn [map parts]. rewrite (leaf_words _ _ _ _ _ _ Da), (leaf_words _ _ _ _ _ _ Db). rewrite (IH _ _ FR'). reflexivity.
  - apply displays_open in D1 as (m1 & t1 & k1 & -> & _ & _ & F1). inversion F1 as [|pn ? rest ? Dp F2]; subst. cbn [words flat_map]. pose proof (leaf_words pn 2%N (bs "p") [] (bs "Hello " ++ u ++ bs " (user_id: " ++ dec id ++ bs ")!") None Dp) as ->. exists (flat_map words rest). rewrite <- !app_assoc. reflexivity.
Qed.

(** A seat's part of the conversation is what its field showed. *)
Lemma at_a_seat reparse (Hre : InnerHtml.standard reparse) h o x : room_reachable reparse h o -> In x (o_open o ++ o_gone o) ->
  exists contents names later, k_sends (t_desk x) = map (fun v => [v]) contents /\ k_joins (t_desk x) = map (fun v => [v]) names /\
    contents = map cm_contents (said_at (t_self x) h) ++ later /\ (k_taken (t_desk x) = length (k_sent (t_desk x)) -> later = []) /\
    Forall (fun m => hd_error names = Some (cm_username m)) (said_at (t_self x) h).
Proof.
  intros Ho Hx. destruct (room_inv reparse Hre h o Ho) as (_ & _ & H1 & H2 & _).
  assert (gone_ok reparse h x) as (S1 & (rs & R1 & R2 & R3) & S2 & S3).
  { apply in_app_iff in Hx as [Hx|Hx]; [|rewrite Forall_forall in H2; exact (H2 x Hx)]. rewrite Forall_forall in H1. destruct (H1 x Hx) as (S1 & _ & S3 & S4 & S5). split; [exact S1|]. split; [exact S3|]. split; [exact S4|].
    destruct (s_chat (t_session x)); destruct S5 as [S5 S6]; [rewrite S6; constructor|]. eapply Forall_impl; [|exact S6]. cbn beta. intros m ->. exact S5. }
  destruct (C113_sent_as_shown reparse Hre _ _ S1) as (rs' & contents & names & Q1 & Q2 & Q3 & Q4 & Q5 & Q6 & Q7 & Q8). rewrite (Q2 _ R1) in *. clear Q2.
  exists contents, names, (skipn (length (messages_of rs')) contents). split; [exact Q3|]. split; [exact Q4|]. rewrite said_at_made, S2, <- R2. split; [|split].
  - rewrite Q5 at 1. symmetry. apply firstn_skipn.
  - intros Ht. destruct (Q8 Ht) as [-> _]. apply skipn_all.
  - eapply Forall_impl; [|exact S3]. cbn beta. intros m Hm. rewrite R3, Hm in Q6. cbn [length] in Q6. destruct names as [|n0 names]; [discriminate|]. cbn [firstn] in Q6. injection Q6 as ->. reflexivity.
Qed.

(** Whatever the users do and however long things are on their way: the messages the server has given out for a user are
    those that user's message field showed at the first clicks on "send message", in that order, each once; all of them
    when no text is left between browser and process; and each is given out under the name the user's name field showed
    at the first click on the button of the first page. Nothing else is said: every message comes from a seat. *)
Theorem C114_said_as_shown : forall reparse, InnerHtml.standard reparse -> forall h o, room_reachable reparse h o ->
  (forall x, In x (o_open o ++ o_gone o) ->
     exists contents names later, k_sends (t_desk x) = map (fun v => [v]) contents /\ k_joins (t_desk x) = map (fun v => [v]) names /\
       contents = map cm_contents (said_at (t_self x) h) ++ later /\ (k_taken (t_desk x) = length (k_sent (t_desk x)) -> later = []) /\
       Forall (fun m => hd_error names = Some (cm_username m)) (said_at (t_self x) h)) /\
  (forall m, In m (said (map snd h)) -> exists x, In x (o_open o ++ o_gone o) /\ In m (said_at (t_self x) h)).
Proof.
  intros reparse Hre h o Ho. split; [intros x Hx; exact (at_a_seat reparse Hre h o x Ho Hx)|].
  destruct (room_inv reparse Hre h o Ho) as (_ & _ & _ & _ & Hh). intros m Hm. unfold said in Hm. apply in_flat_map in Hm as (e & He & Hm). apply in_map_iff in He as ([p e'] & <- & He). cbn [snd] in Hm.
  assert (In p (map t_self (o_open o ++ o_gone o))) as Hp by (apply Hh; change p with (fst (p, e')); now apply in_map). apply in_map_iff in Hp as (x & <- & Hx). exists x. split; [exact Hx|].
  unfold said_at, said. apply in_flat_map. exists e'. split; [|exact Hm]. apply in_map_iff. exists (t_self x, e'). split; [reflexivity|]. apply filter_In. split; [exact He|]. cbn [fst]. apply N.eqb_refl.
Qed.
Print Assumptions C114_said_as_shown.

(** What others have said. *)
Definition said_elsewhere (p : N) (h : record) : list chat_message := said (map snd (filter (fun x => negb (N.eqb (fst x) p)) h)).
Definition speaks (res : linput) : list chat_message := match res with ReceiveMessage m => [m] | _ => [] end.
Lemma said_at_cons p q r res h : said_at p ((q, (r, res)) :: h) = (if N.eqb q p then speaks res else []) ++ said_at p h.
Proof. unfold said_at. cbn [filter fst]. destruct (N.eqb q p); reflexivity. Qed.
Lemma said_elsewhere_cons p q r res h : said_elsewhere p ((q, (r, res)) :: h) = (if N.eqb q p then [] else speaks res) ++ said_elsewhere p h.
Proof. unfold said_elsewhere. cbn [filter fst]. destruct (N.eqb q p); reflexivity. Qed.
Lemma split_voices p id : forall h, Forall (since p id) h -> said_by id (said (map snd h)) = said_at p h /\ said_by_others id (said (map snd h)) = said_elsewhere p h.
Proof.
  induction h as [|[q [r res]] h IH]; intros F; [split; reflexivity|]. inversion F as [|? ? [_ H] F']; subst. destruct (IH F') as [IH1 IH2]. cbn [fst snd] in H.
  rewrite said_at_cons, said_elsewhere_cons, <- IH1, <- IH2. cbn [map snd]. change (said ((r, res) :: map snd h)) with (speaks res ++ said (map snd h)). rewrite by_app, others_app.
  destruct res as [| |m| |]; try (destruct (N.eqb q p); split; reflexivity). cbn [speaks]. unfold said_by at 1, said_by_others at 1. cbn [filter].
  destruct (N.eqb_spec q p) as [->|Hq].
  - rewrite (proj2 (H m eq_refl) eq_refl), N.eqb_refl. split; reflexivity.
  - destruct (N.eqb_spec (cm_sender m) id) as [E|E]; [apply (H m eq_refl) in E; contradiction|]. split; reflexivity.
Qed.
(** From the keyboard to the screen: a user who has joined and whose browser has read what it was sent sees the greeting
    with the name given and one row for each message; the rows are all that this user has sent since, in that order, and,
    in the order in which the server took them, what the others have sent since, except what is still in the inbox. What
    somebody sent is what that person's message field showed at the clicks on "send message": those before this user
    joined, those since, and then those not yet taken, which are none when no text is left between that browser and its
    process; under the name shown at the first click on the button of the first page. *)
Theorem C114_typed_here_shown_there : forall reparse, InnerHtml.standard reparse -> forall h o y u id ms comp, room_reachable reparse h o ->
  In y (o_open o) -> s_chat (t_session y) = Initialized u id ms comp ->
  k_read (t_desk y) = length (snd (chat_process (t_self y) (k_ms (t_desk y)))) ->
  exists n h1 h2 rest, k_doc (t_desk y) = [n] /\ screen_rows [n] = map row_of ms /\
    screen_top [n] = bs "Hello " ++ u ++ bs " (user_id: " ++ dec id ++ bs ")!" ++ rest /\
    h = h1 ++ (t_self y, (RegisterNewUser u (t_self y), UserRegistered id u)) :: h2 /\
    said_by id ms = said_at (t_self y) h2 /\
    said_by_others id ms ++ pending (s_box (t_session y)) = said_elsewhere (t_self y) h2 /\
    forall x, In x (o_open o ++ o_gone o) ->
      exists contents names later, k_sends (t_desk x) = map (fun v => [v]) contents /\ k_joins (t_desk x) = map (fun v => [v]) names /\
        contents = map cm_contents (said_at (t_self x) h1) ++ map cm_contents (said_at (t_self x) h2) ++ later /\
        (k_taken (t_desk x) = length (k_sent (t_desk x)) -> later = []) /\
        Forall (fun m => hd_error names = Some (cm_username m)) (said_at (t_self x) h).
Proof.
  intros reparse Hre h o y u id ms comp Ho Hy Hc Hr. pose proof (room_inv reparse Hre h o Ho) as (W & _ & H1 & _ & _).
  rewrite Forall_forall in H1. destruct (H1 y Hy) as (S1 & (out & C) & _). rewrite Hc in C. rewrite C in Hr. cbn [snd] in Hr.
  destruct (sits_inv reparse Hre _ _ S1) as (us & cs & out1 & rs & I1 & I2 & (A1 & A2 & _) & I4 & (Q1 & Q2 & Q3) & I6 & I7 & I8 & _). rewrite C in A1. injection A1 as A1 _ _ <-.
  rewrite Hr, A2 in I8. cbn [browsing] in I8. destruct I8 as (n & c & En & Ec & D & _). rewrite nth_last, <- A1 in Ec. injection Ec as <-. cbn [chat_element] in D.
  destruct (shown_rows _ _ _ _ _ D) as (Rows & rest & Top).
  pose proof (room_told reparse Hre h o Ho) as T. rewrite Forall_forall in T. destruct (T y Hy id u) as (h1 & h2 & Eh & Fh); [rewrite Hc; reflexivity|].
  destruct (C79_order _ _ W (t_self y) u id ms comp (s_box (t_session y))) as (h2' & (h1' & Eh' & Fh') & B1 & B2).
  { cbn [w_sessions]. rewrite <- Hc. apply in_map_iff. exists y. split; [|exact Hy]. unfold t_self. now destruct (t_session y). }
  assert (h2' = map snd h2) as ->.
  { rewrite Eh, map_app in Eh'. cbn [map snd] in Eh'. destruct (last_such (fun x : creq * linput => exists v, fst x = RegisterNewUser v (t_self y)) _ _ _ _ _ _ Eh') as (_ & _ & E); cbn [fst]; eauto.
    - apply Forall_map. eapply Forall_impl; [|exact Fh]. cbn beta. intros x [Hx _] (v & Ev). apply Hx. exists v. exact Ev.
    - eapply Forall_impl; [|exact Fh']. cbn beta. intros x [_ Hx] (v & Ev). now apply (Hx v). }
  destruct (split_voices _ _ _ Fh) as [V1 V2]. exists n, h1, h2, rest. split; [exact En|]. split; [exact Rows|]. split; [exact Top|]. split; [exact Eh|]. split; [congruence|]. split; [congruence|].
  intros x Hx. destruct (at_a_seat reparse Hre h o x Ho Hx) as (contents & names & later & K1 & K2 & K3 & K4 & K5). exists contents, names, later. split; [exact K1|]. split; [exact K2|]. split; [|split; [exact K4|exact K5]].
  rewrite K3, Eh, said_at_app, map_app, <- app_assoc. change (said_at (t_self x) ((t_self y, (RegisterNewUser u (t_self y), UserRegistered id u)) :: h2)) with (said_at (t_self x) ([(t_self y, (RegisterNewUser u (t_self y), UserRegistered id u))] ++ h2)).
  rewrite said_at_app. replace (said_at (t_self x) [(t_self y, (RegisterNewUser u (t_self y), UserRegistered id u))]) with (@nil chat_message); [reflexivity|]. unfold said_at. cbn [filter fst]. now destruct (N.eqb (t_self y) (t_self x)).
Qed.
Print Assumptions C114_typed_here_shown_there.

(** Not vacuous: ann and bob join and write; carl, at first, only looks. *)
Definition asked (ls : hmap (handler linput)) (text : str) : option linput :=
  match client_message text with
  | None => None
  | Some (name, payload) =>
      match get name ls, payload with
      | Some (OnClick call), _ => Some call
      | Some (OnSubmit call), _ => Some call
      | Some (OnInput call), Some v => Some (call v)
      | _, _ => None
      end
  end.
Lemma asked_asks ls text : match asked ls text with Some i => asks ls (Ws (inl (WsModel.Text text)) : mail linput N) i | None => forall i, ~ asks ls (Ws (inl (WsModel.Text text)) : mail linput N) i end.
Proof.
  unfold asked. destruct (client_message text) as [[name payload]|] eqn:E.
  - assert (says text name payload) as Hs by (apply says_iff; exact E).
    assert (forall n q, says text n q -> n = name /\ q = payload) as U by (intros n q Hq; apply says_iff in Hq; rewrite E in Hq; now injection Hq).
    destruct (get name ls) as [[call|call|call]|] eqn:G.
    + eapply asks_click; eauto.
    + eapply asks_submit; eauto.
    + destruct payload as [v|]; [eapply asks_input; eauto|]. intros i H. inversion H as [|? n q c Hq Hg|? n q c Hq Hg|? n v c Hq Hg]; subst; apply U in Hq as [-> Hq]; try congruence.
    + intros i H. inversion H as [|? n q c Hq Hg|? n q c Hq Hg|? n v c Hq Hg]; subst; apply U in Hq as [-> Hq]; congruence.
  - intros i H. inversion H as [|? n q c Hq Hg|? n q c Hq Hg|? n v c Hq Hg]; subst; apply says_iff in Hq; congruence.
Qed.
Inductive turn := TEnter (p : N) | TDoes (n : nat) (x : deed) | TText (n : nat) | TInput (n : nat) | TLeave (n : nat).
Fixpoint reseat (ss : list session) (l : list seat) : list seat := match ss, l with s :: ss', x :: l' => Seat s (t_desk x) :: reseat ss' l' | _, _ => [] end.
Lemma reseat_served msgs l : served_seats msgs l (reseat (deliver_all msgs (map t_session l)) l).
Proof.
  rewrite deliver_all_map. unfold served_seats. rewrite deliver_all_map. induction l as [|x l [IH1 IH2]]; [split; reflexivity|]. cbn [map reseat t_session t_desk]. now rewrite IH1, IH2.
Qed.
Definition turn_step (x : turn) (o : room) : option (record * room) :=
  match o with Room w l g =>
    match x with
    | TEnter p => if existsb (N.eqb p) (map t_self (l ++ g)) then None else Some ([], Room w (l ++ [Seat (Session p chat_new []) (Desk [] 0 [] [] 0 [] [])]) g)
    | TDoes n d => match skipn n l with
        | Seat s k :: l2 => match d with DTake _ => None | _ => match deed_step (s_self s) d k with Some k' => Some ([], Room w (firstn n l ++ Seat s k' :: l2) g) | None => None end end
        | [] => None end
    | TText n => match skipn n l with
        | Seat s k :: l2 => match nth_error (k_sent k) (k_taken k) with
            | None => None
            | Some text => match asked (chat_listeners (s_chat s)) text with
                | None => Some ([], Room w (firstn n l ++ Seat s (heard_text k None text) :: l2) g)
                | Some i => match handle_input w s i with
                    | inl _ => None
                    | inr (w', s', msgs, hh) => let l0 := firstn n l ++ Seat s' (heard_text k (answer hh) text) :: l2 in
                        Some (map (pair (s_self s)) hh, Room w' (reseat (deliver_all msgs (map t_session l0)) l0) g)
                    end end end
        | [] => None end
    | TInput n => match skipn n l with
        | Seat (Session p c (i :: box)) k :: l2 => match handle_input w (Session p c box) i with
            | inl _ => None
            | inr (w', s', msgs, hh) => let l0 := firstn n l ++ Seat s' (heard_input k (answer hh) i) :: l2 in
                Some (map (pair p) hh, Room w' (reseat (deliver_all msgs (map t_session l0)) l0) g)
            end
        | _ => None end
    | TLeave n => match skipn n l with
        | Seat s k :: l2 => match drop_request (s_chat s) with
            | None => Some ([], Room w (firstn n l ++ l2) (Seat s k :: g))
            | Some r => match handle w r with
                | None => None
                | Some (w', res, msgs) => Some ([(s_self s, (r, res))], Room w' (reseat (deliver_all msgs (map t_session (firstn n l ++ l2))) (firstn n l ++ l2)) (Seat s k :: g))
                end end
        | [] => None end
    end
  end.
Fixpoint turns (xs : list turn) (h : record) (o : room) : option (record * room) :=
  match xs with [] => Some (h, o) | x :: xs' => match turn_step x o with Some (h', o') => turns xs' (h ++ h') o' | None => None end end.
Lemma turn_ok x o h o' : turn_step x o = Some (h, o') -> room_step InnerHtml.plain_browser o h o'.
Proof.
  destruct o as [w l g], x as [p|n d|n|n|n]; cbn [turn_step]; intros H.
  - destruct (existsb (N.eqb p) (map t_self (l ++ g))) eqn:E; [discriminate|]. injection H as <- <-. apply o_enter. intros Hi. assert (existsb (N.eqb p) (map t_self (l ++ g)) = true) as E'; [|congruence]. apply existsb_exists. exists p. split; [exact Hi|apply N.eqb_refl].
  - destruct (skipn n l) as [|[s k] l2] eqn:E; [discriminate|]. pose proof (firstn_skipn n l) as El; rewrite E in El; clear E; set (l1 := firstn n l) in *; clearbody l1; subst l. destruct (deed_step (s_self s) d k) as [k'|] eqn:D; [|destruct d; discriminate].
    assert (hand InnerHtml.plain_browser (s_self s) k k' /\ (h, o') = ([], Room w (l1 ++ Seat s k' :: l2) g)) as [Hh [= -> ->]]; [|now apply o_hand].
    destruct d as [q text|q| |e]; try discriminate H; injection H as <- <-; (split; [|reflexivity]); destruct k as [ms r d s0 t cs cj]; cbn [deed_step] in D.
    + destruct (field_b q d) eqn:F; [|discriminate]. destruct (act (Types q text) d) as [d' s'] eqn:A. injection D as <-. apply (hand_type _ _ ms r d s0 t cs cj q text d' s'); [|exact A].
      unfold field_b in F. destruct (node_at q d) as [[|tag a ty l0 kids]|] eqn:N; try discriminate. apply andb_prop in F as [F1 F2]. apply str_eqb_eq in F1. subst tag. exists a, ty, l0, kids. split; [exact N|].
      destruct (get (bs "type") a); [|discriminate]. apply str_eqb_eq in F2. now subst.
    + destruct (node_at q d) as [[|tag a ty l0 kids]|] eqn:N; try discriminate. destruct (act (Clicks q) d) as [d' s'] eqn:A. injection D as <-. exact (hand_click _ _ ms r d s0 t cs cj q tag a ty l0 kids d' s' N A).
    + destruct (chat_process (s_self s) ms) as [proc out] eqn:C. destruct (nth_error out r) as [text|] eqn:N; [|discriminate]. destruct (v_message InnerHtml.plain_browser text d) as [d' ok] eqn:M. injection D as <-. exact (hand_read _ _ ms r d s0 t cs cj proc out text d' ok C N M).
  - destruct (skipn n l) as [|[s k] l2] eqn:E; [discriminate|]. pose proof (firstn_skipn n l) as El; rewrite E in El; clear E; set (l1 := firstn n l) in *; clearbody l1; subst l. destruct (nth_error (k_sent k) (k_taken k)) as [text|] eqn:N; [|discriminate].
    pose proof (asked_asks (chat_listeners (s_chat s)) text) as A. destruct (asked (chat_listeners (s_chat s)) text) as [i|].
    + destruct (handle_input w s i) as [|[[[w' s'] msgs] hh]] eqn:Hi; [discriminate|]. injection H as <- <-. eapply o_text; [exact N|exact A|exact Hi|]. apply reseat_served.
    + injection H as <- <-. now apply o_idle.
  - destruct (skipn n l) as [|[[p c [|i box]] k] l2] eqn:E; try discriminate. pose proof (firstn_skipn n l) as El; rewrite E in El; clear E; set (l1 := firstn n l) in *; clearbody l1; subst l. destruct (handle_input w (Session p c box) i) as [|[[[w' s'] msgs] hh]] eqn:Hi; [discriminate|]. injection H as <- <-. eapply o_input; [exact Hi|]. apply reseat_served.
  - destruct (skipn n l) as [|[s k] l2] eqn:E; [discriminate|]. pose proof (firstn_skipn n l) as El; rewrite E in El; clear E; set (l1 := firstn n l) in *; clearbody l1; subst l. destruct (drop_request (s_chat s)) as [r|] eqn:D.
    + destruct (handle w r) as [[[w' res] msgs]|] eqn:Hr; [|discriminate]. injection H as <- <-. eapply o_leave_joined; [exact D|exact Hr|apply reseat_served].
    + injection H as <- <-. now apply o_leave.
Qed.
Lemma turns_ok xs : forall h o h' o', turns xs h o = Some (h', o') -> room_reachable InnerHtml.plain_browser h o -> room_reachable InnerHtml.plain_browser h' o'.
Proof. induction xs as [|x xs IH]; intros h o h' o'; cbn [turns]; [now intros [= -> ->]|]. destruct (turn_step x o) as [[h1 o1]|] eqn:E; [|discriminate]. intros H R. eapply IH; [exact H|]. eapply o_step; [exact R|]. exact (turn_ok _ _ _ _ E). Qed.

Definition joins (n : nat) (name : str) : list turn := [TDoes n DRead; TDoes n (DType [0; 0; 0] name); TText n; TDoes n (DClick [0; 1; 0]); TDoes n DRead; TText n; TDoes n DRead].
Definition writes (n : nat) (text : str) : list turn := [TDoes n (DType [0; 0; 1; 0] text); TDoes n (DClick [0; 0; 2; 0])].
Definition evening : list turn :=
  [TEnter 11; TEnter 12] ++ joins 0 (bs "ann") ++ writes 0 (bs "early") ++ [TText 0; TText 0; TDoes 0 DRead; TDoes 0 DRead] ++ joins 1 (bs "bob") ++
  writes 0 (bs "hi bob") ++ writes 1 (bs "anyone?") ++ [TText 1; TText 1; TText 0; TText 0; TInput 0; TInput 1; TDoes 0 DRead; TDoes 1 DRead; TDoes 1 DRead; TDoes 1 DRead] ++
  writes 0 (bs "bye") ++ [TText 0; TText 0; TLeave 0].
Example C114_example : exists h o y x comp, turns evening [] (Room server_init [] []) = Some (h, o) /\ room_reachable InnerHtml.plain_browser h o /\ o_open o = [y] /\ o_gone o = [x] /\
  s_chat (t_session y) = Initialized (bs "bob") 1 [ChatMessage 1 (bs "bob") (bs "anyone?"); ChatMessage 0 (bs "ann") (bs "hi bob")] comp /\
  k_read (t_desk y) = length (snd (chat_process (t_self y) (k_ms (t_desk y)))) /\
  screen_rows (k_doc (t_desk y)) = [[bs "Message from bob (user id: 1)"; bs "anyone?"]; [bs "Message from ann (user id: 0)"; bs "hi bob"]] /\
  pending (s_box (t_session y)) = [ChatMessage 0 (bs "ann") (bs "bye")] /\
  k_sends (t_desk x) = [[bs "early"]; [bs "hi bob"]; [bs "bye"]] /\ k_joins (t_desk x) = [[bs "ann"]].
Proof.
  destruct (turns evening [] (Room server_init [] [])) as [[h o]|] eqn:E; [|vm_compute in E; discriminate].
  pose proof (turns_ok _ _ _ _ _ E (o_start _)) as R. vm_compute in E. injection E as <- <-. do 5 eexists. split; [reflexivity|]. split; [exact R|]. repeat split; vm_compute; reflexivity.
Qed.
