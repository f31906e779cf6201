(** Model of examples/chat/src/main.rs. *)
From Verif Require Import Base HMap Num DomModel HtmlModel ClientModel ComponentModel ComponentSpec.
From Verif Require WsModel.

(** Maps with [UserId] keys (HashMap<UserId, _>; the iteration order is the list's). *)
Section NMap.
Context {V : Type}.
Definition nmap := list (N * V).
Fixpoint nget (k : N) (m : nmap) : option V :=
  match m with [] => None | (k', v) :: m' => if N.eqb k k' then Some v else nget k m' end.
Fixpoint ninsert (k : N) (v : V) (m : nmap) : nmap :=
  match m with [] => [(k, v)] | (k', v') :: m' => if N.eqb k k' then (k, v) :: m' else (k', v') :: ninsert k v m' end.
Definition nremove (k : N) (m : nmap) : nmap := filter (fun kv => negb (N.eqb k (fst kv))) m.
End NMap.
Arguments nmap : clear implicits.

(** main.rs:19-25 [ChatMessage]. *)
Record chat_message := ChatMessage { cm_sender : N; cm_username : str; cm_contents : str }.
(** main.rs:364-372 [BrowserRequest]. *)
Inductive browser_request :=
| UpdateInitializeUsernameTextField (v : str) | InitializeUser | UpdateMessageContentsTextField (v : str) | SendTextMessage.
(** main.rs:355-362 [LiveviewInput]. *)
Inductive linput :=
| UserRegistered (id : N) (username : str) | UpdatedUsername (username : str) | ReceiveMessage (m : chat_message)
| BrowserRequest (r : browser_request) | Closed.
(** main.rs:374-380 [CoordinatorInput]; process handles are numbers. *)
Inductive creq := RegisterNewUser (username : str) (proc : N) | SetUsername (id : N) (username : str)
| SendMessage (id : N) (text : str) | RemoveUser (id : N).

(* ------------------------------------------------------------------ *)
(** ** The server process *)

(** main.rs:388-393 [UserIdCreator]; the set [in_use] as a list. *)
Record id_creator := IdCreator { in_use : list N; recycle : list N; head : N }.
Definition u64_max : N := 2 ^ 64 - 1.
(** main.rs:396-404 [get_id]. [None]: the addition overflows (with overflow checks, a panic). The stack
    [recycle] has its top first. *)
Definition get_id (g : id_creator) : option (N * id_creator) :=
  match recycle g with
  | id :: r => Some (id, IdCreator (id :: in_use g) r (head g))
  | [] => if (head g <? u64_max)%N then Some (head g, IdCreator (head g :: in_use g) [] (head g + 1)) else None
  end.
(** main.rs:406-410 [release_id]. *)
Definition release_id (id : N) (g : id_creator) : id_creator :=
  if existsb (N.eqb id) (in_use g)
  then IdCreator (filter (fun j => negb (N.eqb id j)) (in_use g)) (id :: recycle g) (head g)
  else g.

(** main.rs:413-417 [ChatServerState]: users with name and process; [Default] is the initial state
    (427-429). *)
Record server := Server { users : nmap (str * N); id_gen : id_creator }.
Definition server_init : server := Server [] (IdCreator [] [] 0).

(** main.rs:434-471 [handle]: the new state, the response, and the messages sent to other processes.
    [None]: a panic. *)
Definition handle (s : server) (r : creq) : option (server * linput * list (N * linput)) :=
  match r with
  | RegisterNewUser username proc =>                                        (* 436-440 *)
      match get_id (id_gen s) with
      | None => None
      | Some (id, g) => Some (Server (ninsert id (username, proc) (users s)) g, UserRegistered id username, [])
      end
  | SetUsername id username =>                                              (* 441-447 *)
      Some (match nget id (users s) with
            | Some (_, proc) => Server (ninsert id (username, proc) (users s)) (id_gen s)
            | None => s
            end, UpdatedUsername username, [])
  | SendMessage id text =>                                                  (* 448-462 *)
      match nget id (users s) with
      | None => None                                                        (* 451, unwrap *)
      | Some (username, _) =>
          let m := ChatMessage id username text in
          Some (s, ReceiveMessage m,
                flat_map (fun u => if negb (N.eqb (fst u) id) then [(snd (snd u), ReceiveMessage m)] else []) (users s))
      end
  | RemoveUser id =>                                                        (* 463-467 *)
      Some (Server (nremove id (users s)) (release_id id (id_gen s)), Closed, [])
  end.

(* ------------------------------------------------------------------ *)
(** ** The component *)

(** main.rs:27-39 [LiveviewComponent] (the handle to the server is left out: there is one server). *)
Inductive chat :=
| Uninitialized (username : str)
| Initialized (username : str) (user_id : N) (messages : list chat_message) (composing : str).

(** main.rs:57-62 [new]. *)
Definition chat_new : chat := Uninitialized [].

(** main.rs:115-118 and 157-160: the request an update makes, if any. *)
Definition chat_request (c : chat) (i : linput) (self : N) : option creq :=
  match c, i with
  | Uninitialized username, BrowserRequest InitializeUser => Some (RegisterNewUser username self)
  | Initialized _ id _ composing, BrowserRequest SendTextMessage => Some (SendMessage id composing)
  | _, _ => None
  end.
(** main.rs:64-188 [update], except the arm of SendTextMessage; [answer]: the server's response to the
    request the update makes. [None]: unreachable!() or todo!(). *)
Definition chat_update1 (answer : option linput) (c : chat) (i : linput) : option chat :=
  match c, i with
  | Uninitialized _, UserRegistered id username => Some (Initialized username id [] [])           (* 66-84 *)
  | Initialized u id ms comp, ReceiveMessage m => Some (Initialized u id (ms ++ [m]) comp)         (* 85-95 *)
  | Uninitialized u, ReceiveMessage _ => Some (Uninitialized u)                                   (* 96-98 *)
  | Initialized _ id ms comp, UpdatedUsername u => Some (Initialized u id ms comp)                 (* 99-108 *)
  | Uninitialized _, BrowserRequest InitializeUser =>                                             (* 109-135 *)
      match answer with Some (UserRegistered id username) => Some (Initialized username id [] []) | _ => None end
  | Uninitialized _, BrowserRequest (UpdateInitializeUsernameTextField v) => Some (Uninitialized v) (* 136-148 *)
  | c, Closed => Some c                                                                           (* 149 *)
  | Initialized u id ms _, BrowserRequest (UpdateMessageContentsTextField v) => Some (Initialized u id ms v) (* 169-180 *)
  | _, _ => None                                                                                  (* 181-183 *)
  end.
(** main.rs:64-188 [update]. In 150-168 the update continues with the response; should that be
    SendTextMessage again, it would ask the server once more, which is not modelled ([None]; the server
    never answers so). *)
Definition chat_update (answer : option linput) (c : chat) (i : linput) : option chat :=
  match c, i with
  | Initialized _ _ _ _, BrowserRequest SendTextMessage =>
      match answer with Some res => chat_update1 None c res | None => None end
  | _, _ => chat_update1 answer c i
  end.

(** main.rs:191-325 [render]. *)
Definition uninit_page (username : str) : wrapped :=                          (* 202-225 *)
  add_child (add_child (add_listener (Listener (bs "initialize_username") (bs "click"))
                          (wrap KInput [(bs "type", bs "submit")] [])) (wrap KDiv [] []))
   (add_child (add_child (add_listener (Listener (bs "set_username") (bs "input"))
                            (wrap KInput [(bs "type", bs "text"); (bs "placeholder", bs "username..."); (bs "value", username)] []))
                 (wrap KDiv [] []))
     (wrap KDiv [] [])).
Definition message_row (m : chat_message) : wrapped :=                        (* 288-299 *)
  add_child (wrap KP [] (cm_contents m))
    (add_child (wrap KH3 [] (bs "Message from " ++ cm_username m ++ bs " (user id: " ++ dec (cm_sender m) ++ bs ")"))
      (wrap KDiv [] [])).
Definition init_page (username : str) (id : N) (messages : list chat_message) (composing : str) : wrapped := (* 254-300 *)
  add_children (map message_row messages)
   (add_child
     (add_child (add_child (add_listener (Listener (bs "submit_message") (bs "click"))
                              (wrap KInput [(bs "type", bs "submit"); (bs "value", bs "send message")] [])) (wrap KDiv [] []))
       (add_child (add_child (add_listener (Listener (bs "update_message_contents") (bs "input"))
                                (wrap KInput [(bs "value", composing); (bs "type", bs "text"); (bs "placeholder", bs "send a new message...")] []))
                     (wrap KDiv [] []))
         (add_child (wrap KP [] (bs "Hello " ++ username ++ bs " (user_id: " ++ dec id ++ bs ")!"))
           (wrap KDiv [] []))))
     (wrap KDiv [] [])).
Definition chat_page (c : chat) : wrapped :=
  match c with
  | Uninitialized username => uninit_page username
  | Initialized username id messages composing => init_page username id messages composing
  end.
Definition chat_listeners (c : chat) : hmap (handler linput) :=
  match c with
  | Uninitialized _ =>                                                        (* 226-247 *)
      [(bs "set_username", OnInput (fun v => BrowserRequest (UpdateInitializeUsernameTextField v)));
       (bs "initialize_username", OnClick (BrowserRequest InitializeUser))]
  | Initialized _ _ _ _ =>                                                    (* 301-323 *)
      [(bs "update_message_contents", OnInput (fun v => BrowserRequest (UpdateMessageContentsTextField v)));
       (bs "submit_message", OnClick (BrowserRequest SendTextMessage))]
  end.
(** The component as [ComponentModel] has it: [unit] for the start data, the server's answer for the
    environment. *)
Definition chat_component : component unit linput chat (option linput) N := {|
  c_new := fun _ _ _ => Some chat_new;
  c_update := fun answer c i _ => chat_update answer c i;
  c_render := fun c => match into_element (chat_page c) 0 with
                       | Some (e, _) => Some (e, chat_listeners c)
                       | None => None
                       end |}.
(** main.rs:328-346 [drop]: the request it makes. *)
Definition drop_request (c : chat) : option creq :=
  match c with Uninitialized _ => None | Initialized _ id _ _ => Some (RemoveUser id) end.

(* ------------------------------------------------------------------ *)
(** ** The whole example: the server and the sessions *)

(** A session: the process handle its component has, the component, and the inputs on their way to it (in the
    supervisor's and the component's mailbox, see C62). *)
Record session := Session { s_self : N; s_chat : chat; s_box : list linput }.
Record world := World { w_server : server; w_sessions : list session }.
Definition world_init : world := World server_init [].
(** Sending: the message joins the inbox of the session with that handle, if there still is one. *)
Definition deliver (msg : N * linput) (l : list session) : list session :=
  map (fun s => if N.eqb (s_self s) (fst msg) then Session (s_self s) (s_chat s) (s_box s ++ [snd msg]) else s) l.
Definition deliver_all (msgs : list (N * linput)) (l : list session) : list session :=
  fold_left (fun l m => deliver m l) msgs l.

(** What can go wrong. *)
Inductive crash := ServerPanic | ComponentPanic.
(** A component handles one input: its update with the request it makes, answered by the server. The component
    is blocked until the answer has come and nobody else sees its state, so the request, the answer and the update
    are one step, at the time the server handles the request. The last component of the result: the request with
    its answer. *)
Definition handle_input (w : server) (s : session) (i : linput) :
  crash + (server * session * list (N * linput) * list (creq * linput)) :=
  match chat_request (s_chat s) i (s_self s) with
  | None => match chat_update None (s_chat s) i with
            | Some c => inr (w, Session (s_self s) c (s_box s), [], [])
            | None => inl ComponentPanic
            end
  | Some r => match handle w r with
              | None => inl ServerPanic
              | Some (w', res, msgs) =>
                  match chat_update (Some res) (s_chat s) i with
                  | Some c => inr (w', Session (s_self s) c (s_box s), msgs, [(r, res)])
                  | None => inl ComponentPanic
                  end
              end
  end.
(** One step of the whole, with the requests the server answers in it, or a crash. Sessions open with a handle
    nobody has (main.rs:348-353); a component takes an input from its inbox; the browser sends any text
    whatsoever, which may ask for an input by the current listeners; a session closes (component/mod.rs:169-172)
    and its component is dropped. *)
Inductive world_step : world -> crash + world * list (creq * linput) -> Prop :=
| w_open w l p : ~ In p (map s_self l) -> world_step (World w l) (inr (World w (l ++ [Session p chat_new []]), []))
| w_input w l1 p c i box l2 r : handle_input w (Session p c box) i = r ->
    world_step (World w (l1 ++ Session p c (i :: box) :: l2))
      (match r with inl e => inl e | inr (w', s', msgs, h) => inr (World w' (deliver_all msgs (l1 ++ s' :: l2)), h) end)
| w_browser w l1 s l2 text i r : asks (chat_listeners (s_chat s)) (@Ws linput N (inl (WsModel.Text text))) i -> handle_input w s i = r ->
    world_step (World w (l1 ++ s :: l2))
      (match r with inl e => inl e | inr (w', s', msgs, h) => inr (World w' (deliver_all msgs (l1 ++ s' :: l2)), h) end)
| w_close w l1 s l2 :
    world_step (World w (l1 ++ s :: l2))
      (match drop_request (s_chat s) with
       | None => inr (World w (l1 ++ l2), [])
       | Some r => match handle w r with
                   | None => inl ServerPanic
                   | Some (w', res, msgs) => inr (World w' (deliver_all msgs (l1 ++ l2)), [(r, res)])
                   end
       end).
(** The worlds that can come about, with the server's history. *)
Inductive world_reachable : list (creq * linput) -> world -> Prop :=
| wr_init : world_reachable [] world_init
| wr_step h w w' h' : world_reachable h w -> world_step w (inr (w', h')) -> world_reachable (h ++ h') w'.
