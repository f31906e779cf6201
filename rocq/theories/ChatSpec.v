(** Vocabulary for the statements about the chat example. *)
From Verif Require Import Base HMap Num DomModel ClientModel ClientSpec ComponentModel JsonSpec ComponentSpec ChatModel.
From Verif Require WsModel.

(** The server's history: the requests it has answered, with the answers. *)
Definition history := list (creq * linput).
Inductive serves : history -> server -> Prop :=
| serves_init : serves [] server_init
| serves_step h s r s' res msgs : serves h s -> handle s r = Some (s', res, msgs) -> serves (h ++ [(r, res)]) s'.

(** Who is registered after a history, under which name and with which process, judged by the requests and
    answers alone. *)
Definition concerns (id : N) (x : creq * linput) : Prop :=
  fst x = RemoveUser id \/ (exists u, fst x = SetUsername id u) \/ (exists u, snd x = UserRegistered id u).
Inductive registered : history -> N -> str -> N -> Prop :=
| reg_new h u p id : registered (h ++ [(RegisterNewUser u p, UserRegistered id u)]) id u p
| reg_rename h id u0 u p res : registered h id u0 p -> registered (h ++ [(SetUsername id u, res)]) id u p
| reg_keep h x id u p : registered h id u p -> ~ concerns id x -> registered (h ++ [x]) id u p.

(** The number of messages on the page. *)
Definition messages_shown (c : chat) : N := match c with Uninitialized _ => 0 | Initialized _ _ ms _ => N.of_nat (length ms) end.

(** The texts a browser sends for values without "+". *)
Definition typed_plainly (m : mail linput N) : Prop :=
  match m with
  | Ws (inl (WsModel.Text text)) => forall name value, says text name (Some value) -> plus_free value
  | Input (BrowserRequest _) => False
  | _ => True
  end.

(** What a chat process meets: other processes send it chat messages only; the server answers a registration
    with the new user, a message with the message. *)
Definition ordinary (em : option linput * mail linput N) : Prop :=
  match snd em with
  | Input i => exists m, i = ReceiveMessage m
  | Ws (inl (WsModel.Text text)) => forall name payload, says text name payload ->
      (name = bs "initialize_username" -> exists id u, fst em = Some (UserRegistered id u)) /\
      (name = bs "submit_message" -> exists m, fst em = Some (ReceiveMessage m))
  | _ => True
  end.

(** The messages said in a history. *)
Definition said (h : history) : list chat_message :=
  flat_map (fun x => match snd x with ReceiveMessage m => [m] | _ => [] end) h.
(** The messages waiting in an inbox. *)
Definition pending (box : list linput) : list chat_message :=
  flat_map (fun i => match i with ReceiveMessage m => [m] | _ => [] end) box.
(** After [h], process [p] is the user [id], named [u], and [h2] is what has happened since it registered. *)
Definition since_joining (h : history) (p id : N) (u : str) (h2 : history) : Prop :=
  exists h1, h = h1 ++ (RegisterNewUser u p, UserRegistered id u) :: h2 /\
    Forall (fun x => fst x <> RemoveUser id /\ forall v, fst x <> RegisterNewUser v p) h2.

(** The messages of one user, and those of the others. *)
Definition said_by (id : N) (l : list chat_message) : list chat_message := filter (fun m => N.eqb (cm_sender m) id) l.
Definition said_by_others (id : N) (l : list chat_message) : list chat_message := filter (fun m => negb (N.eqb (cm_sender m) id)) l.

(** What the server sends of its own accord. *)
Definition from_server (i : linput) : Prop := exists m, i = ReceiveMessage m.
