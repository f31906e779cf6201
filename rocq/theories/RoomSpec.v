(** The whole chat with its users: the server, the sessions, and for each session a user at a browser, with all delays on
    the way in both directions. *)
From Verif Require Import Base HMap Num DomModel ClientModel ClientSpec ComponentModel ComponentSpec ChatModel ChatSpec UserModel DeskSpec.
From Verif Require WsModel.

(** A session with its user; what the desk records is explained in DeskSpec.v. *)
Record seat := Seat { t_session : session; t_desk : desk }.
Definition t_self (x : seat) : N := s_self (t_session x).
(** The seats now taken, and those left (with the session and the desk as they were then). *)
Record room := Room { o_server : server; o_open : list seat; o_gone : list seat }.
(** The requests the server has answered, each with the process that made it. *)
Definition record := list (N * (creq * linput)).
(** What the user and the browser do: typing, clicking, and reading the next text from the process. *)
Inductive hand (reparse : str -> str -> list node -> list node) (p : N) : desk -> desk -> Prop :=
| hand_type ms r d s t cs cj q text d' s' : text_field q d -> act (Types q text) d = (d', s') ->
    hand reparse p (Desk ms r d s t cs cj) (Desk ms r d' (s ++ s') t cs cj)
| hand_click ms r d s t cs cj q tag a ty l kids d' s' : node_at q d = Some (VElem tag a ty l kids) -> act (Clicks q) d = (d', s') ->
    hand reparse p (Desk ms r d s t cs cj) (Desk ms r d' (s ++ s') t
      (cs ++ if listens (bs "submit_message") (VElem tag a ty l kids) then [flat_map (shown_by (bs "update_message_contents")) d] else [])
      (cj ++ if listens (bs "initialize_username") (VElem tag a ty l kids) then [flat_map (shown_by (bs "set_username")) d] else []))
| hand_read ms r d s t cs cj proc out text d' ok : chat_process p ms = (proc, out) -> nth_error out r = Some text -> v_message reparse text d = (d', ok) ->
    hand reparse p (Desk ms r d s t cs cj) (Desk ms (S r) d' s t cs cj).
(** The process takes the next text of the browser, or an input; [e]: the server's answer. *)
Definition heard_text (k : desk) (e : option linput) (text : str) : desk :=
  Desk (k_ms k ++ [(e, Ws (inl (WsModel.Text text)))]) (k_read k) (k_doc k) (k_sent k) (S (k_taken k)) (k_sends k) (k_joins k).
Definition heard_input (k : desk) (e : option linput) (i : linput) : desk :=
  Desk (k_ms k ++ [(e, Input i)]) (k_read k) (k_doc k) (k_sent k) (k_taken k) (k_sends k) (k_joins k).
Definition answer (hh : history) : option linput := match hh with (_, res) :: _ => Some res | [] => None end.
(** The seats when the messages [msgs] have been put into the inboxes. *)
Definition served_seats (msgs : list (N * linput)) (l l' : list seat) : Prop :=
  map t_session l' = deliver_all msgs (map t_session l) /\ map t_desk l' = map t_desk l.

(** One step of the whole (those of [world_step] in ChatModel.v, with the texts coming from the browsers), and the
    requests answered in it. *)
Inductive room_step (reparse : str -> str -> list node -> list node) : room -> record -> room -> Prop :=
| o_enter w l g p : ~ In p (map t_self (l ++ g)) ->
    room_step reparse (Room w l g) [] (Room w (l ++ [Seat (Session p chat_new []) (Desk [] 0 [] [] 0 [] [])]) g)
| o_hand w l1 s k k' l2 g : hand reparse (s_self s) k k' ->
    room_step reparse (Room w (l1 ++ Seat s k :: l2) g) [] (Room w (l1 ++ Seat s k' :: l2) g)
| o_text w l1 s k l2 g text i w' s' msgs hh l' : nth_error (k_sent k) (k_taken k) = Some text ->
    asks (chat_listeners (s_chat s)) (Ws (inl (WsModel.Text text)) : mail linput N) i -> handle_input w s i = inr (w', s', msgs, hh) ->
    served_seats msgs (l1 ++ Seat s' (heard_text k (answer hh) text) :: l2) l' ->
    room_step reparse (Room w (l1 ++ Seat s k :: l2) g) (map (pair (s_self s)) hh) (Room w' l' g)
| o_idle w l1 s k l2 g text : nth_error (k_sent k) (k_taken k) = Some text ->
    (forall i, ~ asks (chat_listeners (s_chat s)) (Ws (inl (WsModel.Text text)) : mail linput N) i) ->
    room_step reparse (Room w (l1 ++ Seat s k :: l2) g) [] (Room w (l1 ++ Seat s (heard_text k None text) :: l2) g)
| o_input w l1 p c i box k l2 g w' s' msgs hh l' : handle_input w (Session p c box) i = inr (w', s', msgs, hh) ->
    served_seats msgs (l1 ++ Seat s' (heard_input k (answer hh) i) :: l2) l' ->
    room_step reparse (Room w (l1 ++ Seat (Session p c (i :: box)) k :: l2) g) (map (pair p) hh) (Room w' l' g)
| o_leave w l1 s k l2 g : drop_request (s_chat s) = None ->
    room_step reparse (Room w (l1 ++ Seat s k :: l2) g) [] (Room w (l1 ++ l2) (Seat s k :: g))
| o_leave_joined w l1 s k l2 g r w' res msgs l' : drop_request (s_chat s) = Some r -> handle w r = Some (w', res, msgs) ->
    served_seats msgs (l1 ++ l2) l' ->
    room_step reparse (Room w (l1 ++ Seat s k :: l2) g) [(s_self s, (r, res))] (Room w' l' (Seat s k :: g)).
Inductive room_reachable (reparse : str -> str -> list node -> list node) : record -> room -> Prop :=
| o_start : room_reachable reparse [] (Room server_init [] [])
| o_step h o h' o' : room_reachable reparse h o -> room_step reparse o h' o' -> room_reachable reparse (h ++ h') o'.

(** The messages a process has had sent, as the server gave them out. *)
Definition said_at (p : N) (h : record) : list chat_message := said (map snd (filter (fun x => N.eqb (fst x) p) h)).
(** What can be read on the screen: the text in a node, the rows below the first part of the page, and the first part. *)
Fixpoint words (n : vnode) : str := match n with VText s => s | VElem _ _ _ _ kids => flat_map words kids end.
Definition parts (n : vnode) : list vnode := match n with VElem _ _ _ _ kids => kids | VText _ => [] end.
Definition screen_rows (d : list vnode) : list (list str) := map (fun r => map words (parts r)) (tl (flat_map parts d)).
Definition screen_top (d : list vnode) : str := flat_map words (firstn 1 (flat_map parts d)).
(** How a message is written there (examples/chat/src/main.rs:285-299). *)
Definition row_of (m : chat_message) : list str :=
  [bs "Message from " ++ cm_username m ++ bs " (user id: " ++ dec (cm_sender m) ++ bs ")"; cm_contents m].
