(** A user of the chat example, from the first page on: what happens at the browser, on the way, and at the component
    process, in any order. *)
From Verif Require Import Base HMap DomModel ClientModel ClientSpec ComponentModel ComponentSpec ChatModel ChatSpec UserModel UserProofs.
From Verif Require WsModel.

(** Where one can type: an input element of the type text. *)
Definition text_field (p : place) (d : list vnode) : Prop :=
  exists a ty l kids, node_at p d = Some (VElem (bs "input") a ty l kids) /\ get (bs "type") a = Some (bs "text").
(** What the elements with a listener of the name show. *)
Fixpoint shown_by (name : str) (n : vnode) : list str :=
  match n with
  | VText _ => []
  | VElem _ _ _ l kids => (if existsb (fun x => str_eqb (snd x) name) l then [field_value n] else []) ++ flat_map (shown_by name) kids
  end.
Definition listens (name : str) (n : vnode) : bool := existsb (fun x => str_eqb (snd x) name) (v_listeners n).

(** The state of affairs: what the component process has received; how many of its texts the browser has read; the
    document; the texts the browser has sent, and how many of them the process has received; for each click on "send
    message" so far what the message field showed, and for each click on the button of the first page what the name
    field showed. *)
Record desk := Desk {
  k_ms : list (option linput * mail linput N);
  k_read : nat;
  k_doc : list vnode;
  k_sent : list str;
  k_taken : nat;
  k_sends : list (list str);
  k_joins : list (list str) }.
Definition chat_process (p : N) (ms : list (option linput * mail linput N)) := main_loop chat_component tt true ((None, WhoAmI p) :: ms).
(** [e] is what the server answers to the request the process makes on the text, if it makes one: to a registration the
    new user, to a message the message. *)
Definition server_answers (p : N) (ms : list (option linput * mail linput N)) (e : option linput) (text : str) : Prop :=
  forall c dom ls out i r, chat_process p ms = (Looping p c dom ls, out) -> asks ls (Ws (inl (WsModel.Text text)) : mail linput N) i -> chat_request c i p = Some r ->
    match r with
    | RegisterNewUser _ _ => exists id u, e = Some (UserRegistered id u)
    | SendMessage _ _ => exists m, e = Some (ReceiveMessage m)
    | _ => True
    end.
Section Desk.
Context (reparse : str -> str -> list node -> list node) (p : N).
(** Texts are read in the order they were sent, on both sides; the process receives chat messages from others at any time. *)
Inductive sits : desk -> Prop :=
| sits_down : sits (Desk [] 0 [] [] 0 [] [])
| sits_type ms r d s t cs cj q text d' s' : sits (Desk ms r d s t cs cj) -> text_field q d -> act (Types q text) d = (d', s') ->
    sits (Desk ms r d' (s ++ s') t cs cj)
| sits_click ms r d s t cs cj q tag a ty l kids s' d' : sits (Desk ms r d s t cs cj) -> node_at q d = Some (VElem tag a ty l kids) -> act (Clicks q) d = (d', s') ->
    sits (Desk ms r d' (s ++ s') t
      (cs ++ if listens (bs "submit_message") (VElem tag a ty l kids) then [flat_map (shown_by (bs "update_message_contents")) d] else [])
      (cj ++ if listens (bs "initialize_username") (VElem tag a ty l kids) then [flat_map (shown_by (bs "set_username")) d] else []))
| sits_read ms r d s t cs cj proc out text d' ok : sits (Desk ms r d s t cs cj) -> chat_process p ms = (proc, out) -> nth_error out r = Some text ->
    v_message reparse text d = (d', ok) -> sits (Desk ms (S r) d' s t cs cj)
| sits_take ms r d s t cs cj text e : sits (Desk ms r d s t cs cj) -> nth_error s t = Some text -> server_answers p ms e text ->
    sits (Desk (ms ++ [(e, Ws (inl (WsModel.Text text)))]) r d s (S t) cs cj)
| sits_other ms r d s t cs cj e m : sits (Desk ms r d s t cs cj) -> sits (Desk (ms ++ [(e, Input (ReceiveMessage m))]) r d s t cs cj).
End Desk.

(** The requests the process has made to the chat server. *)
Inductive requested (p : N) : list (option linput * mail linput N) -> list creq -> Prop :=
| requested_none : requested p [] []
| requested_update ms rs e m c dom ls out i : requested p ms rs -> chat_process p ms = (Looping p c dom ls, out) -> asks ls m i ->
    requested p (ms ++ [(e, m)]) (rs ++ match chat_request c i p with Some r => [r] | None => [] end)
| requested_idle ms rs e m c dom ls out : requested p ms rs -> chat_process p ms = (Looping p c dom ls, out) -> (forall i, ~ asks ls m i) ->
    requested p (ms ++ [(e, m)]) rs.
Definition messages_of (rs : list creq) : list str := flat_map (fun r => match r with SendMessage _ t => [t] | _ => [] end) rs.
Definition names_of (rs : list creq) : list str := flat_map (fun r => match r with RegisterNewUser u _ => [u] | _ => [] end) rs.
