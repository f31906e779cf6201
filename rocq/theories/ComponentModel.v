(** Model of puck_liveview/src/component/mod.rs and src/client/mod.rs: the component process. *)
From Verif Require Import Base HMap Num Utf8 Json DomModel ClientModel.
From Verif Require WsModel.

(* ------------------------------------------------------------------ *)
(** ** ClientMessage: client/mod.rs:5-14 and what serde derives for it *)

(** client/mod.rs:11-14 [ClientMessagePayload]: an object with the string field value (other fields are
    ignored, repeated ones are an error), or an array of exactly that field. *)
Definition no_dup_key (k : str) (l : list (str * json)) : bool :=
  Nat.leb (length (filter (fun kv => str_eqb k (fst kv)) l)) 1.
Definition decode_payload (v : json) : option str :=
  match v with
  | JObj l => if no_dup_key (bs "value") l then str_prop (bs "value") l else None
  | JArr [JStr s] => Some s
  | _ => None
  end.
Definition decode_payload_opt (v : json) : option (option str) :=
  match v with
  | JNull => Some None
  | _ => match decode_payload v with Some s => Some (Some s) | None => None end
  end.
(** client/mod.rs:5-9 [ClientMessage]: the listener's name and the payload's value; a missing or null
    payload is [None]. *)
Definition decode_client (v : json) : option (str * option str) :=
  match v with
  | JObj l =>
      if no_dup_key (bs "listener") l && no_dup_key (bs "payload") l then
        match str_prop (bs "listener") l with
        | None => None
        | Some name =>
            match prop (bs "payload") l with
            | None => Some (name, None)
            | Some p => match decode_payload_opt p with Some o => Some (name, o) | None => None end
            end
        end
      else None
  | JArr [JStr name; p] => match decode_payload_opt p with Some o => Some (name, o) | None => None end
  | _ => None
  end.
(** mod.rs:121 [serde_json::from_str::<ClientMessage>]; serde_json allows 127 levels of nesting. (The
    model parses the whole text first; serde_json skips the values of unknown fields without looking at
    surrogate escapes and nesting in them.) *)
Definition client_message (text : str) : option (str * option str) :=
  match parse_json 127 text with Some v => decode_client v | None => None end.

(* ------------------------------------------------------------------ *)
(** ** The component *)

(** dom/listener.rs:7-17 [Listener]; the events of click and submit carry nothing (dom/event.rs:1-5). *)
Inductive handler (I : Type) := OnClick (call : I) | OnSubmit (call : I) | OnInput (call : str -> I).
Arguments OnClick {I}. Arguments OnSubmit {I}. Arguments OnInput {I}.

(** mod.rs:20-29, an implementation of [Component]. [E]: what the rest of the world answers while the
    component handles one message (arbitrary); [None]: the component's code panics. [P]: process
    handles (mod.rs:31-46 [Context] is one). *)
Record component (D I S E P : Type) := Component {
  c_new : E -> D -> P -> option S;
  c_update : E -> S -> I -> P -> option S;
  c_render : S -> option (element * hmap (handler I)) }.
Arguments c_new {D I S E P}. Arguments c_update {D I S E P}. Arguments c_render {D I S E P}.

(** mod.rs:209-217 [WsOrInput]. *)
Inductive mail (I P : Type) :=
| Ws (m : WsModel.message + WsModel.next_err)
| Input (i : I)
| WhoAmI (p : P).
Arguments Ws {I P}. Arguments Input {I P}. Arguments WhoAmI {I P}.

(** The state of the component process: waiting for its identity, in the loop (context, component, old
    DOM, old listeners), returned (with the component that was dropped), or panicked. *)
Inductive process (I S P : Type) :=
| Fresh
| Looping (ctx : P) (c : S) (old_dom : element) (old_listeners : hmap (handler I))
| Returned (dropped : S)
| Panicked.
Arguments Fresh {I S P}. Arguments Looping {I S P}. Arguments Returned {I S P}. Arguments Panicked {I S P}.

Section Loop.
Context {D I S E P : Type} (C : component D I S E P).

(** mod.rs:188-205 [perform_diff]: the process afterwards and the texts given to [stream.send] (whose
    result is ignored there). *)
Definition perform_diff (ctx : P) (c : S) (old_dom : element) : process I S P * list str :=
  match c_render C c with
  | None => (Panicked, [])
  | Some (new_dom, new_listeners) =>
      match diff old_dom (Some new_dom) with
      | None => (Panicked, [])
      | Some os => (Looping ctx c new_dom new_listeners, [wire os])
      end
  end.
(** mod.rs:126-133 etc.: update, then perform_diff. *)
Definition update_and_diff (e : E) (ctx : P) (c : S) (old_dom : element) (i : I) : process I S P * list str :=
  match c_update C e c i ctx with
  | None => (Panicked, [])
  | Some c' => perform_diff ctx c' old_dom
  end.

(** mod.rs:98-113, the part before the loop; [sent]: whether the first [send] succeeds (line 113
    unwraps it). *)
Definition start (e : E) (data : D) (sent : bool) (m : mail I P) : process I S P * list str :=
  match m with
  | WhoAmI p =>
      match c_new C e data p with
      | None => (Panicked, [])
      | Some c =>
          match c_render C c with
          | None => (Panicked, [])
          | Some (dom, ls) =>
              match diff dom None with
              | None => (Panicked, [])
              | Some os => (if sent then Looping p c dom ls else Panicked, [wire os])
              end
          end
      end
  | _ => (Panicked, [])                                                    (* 101 *)
  end.

(** mod.rs:116-184, one iteration of the loop. *)
Definition iteration (e : E) (m : mail I P) (ctx : P) (c : S) (old_dom : element) (ls : hmap (handler I))
  : process I S P * list str :=
  let continue := (Looping ctx c old_dom ls, []) in
  match m with
  | Ws (inl (WsModel.Text contents)) =>                                    (* 119 *)
      match client_message contents with
      | Some (name, payload) =>                                            (* 121 *)
          match get name ls with
          | Some (OnClick call) => update_and_diff e ctx c old_dom call     (* 124-133 *)
          | Some (OnSubmit call) => update_and_diff e ctx c old_dom call    (* 134-143 *)
          | Some (OnInput call) =>                                          (* 144-157 *)
              match payload with
              | Some value => update_and_diff e ctx c old_dom (call value)
              | None => continue
              end
          | None => continue                                               (* 122 *)
          end
      | None => continue                                                   (* 160-164 *)
      end
  | Ws (inl _) => continue                                                 (* 119, 165 *)
  | Ws (inr WsModel.ClientError) => continue                               (* 168 *)
  | Ws (inr WsModel.ConnectionClosed) => (Returned c, [])                  (* 169-172 *)
  | Input i => update_and_diff e ctx c old_dom i                           (* 176-180 *)
  | WhoAmI _ => (Panicked, [])                                             (* 181-183 *)
  end.

(** One message taken from the mailbox by whatever the process is; a process that has ended takes
    none. *)
Definition receive (data : D) (sent : bool) (em : E * mail I P) (p : process I S P) : process I S P * list str :=
  match p with
  | Fresh => start (fst em) data sent (snd em)
  | Looping ctx c dom ls => iteration (fst em) (snd em) ctx c dom ls
  | Returned c => (Returned c, [])
  | Panicked => (Panicked, [])
  end.
(** mod.rs:90-186 [main_loop] on the messages of its mailbox: the process afterwards, and all texts sent
    over the WebSocket, in order. *)
Fixpoint run (data : D) (sent : bool) (ms : list (E * mail I P)) (p : process I S P) : process I S P * list str :=
  match ms with
  | [] => (p, [])
  | em :: ms' =>
      let '(p1, o1) := receive data sent em p in
      let '(p2, o2) := run data sent ms' p1 in
      (p2, o1 ++ o2)
  end.
Definition main_loop (data : D) (sent : bool) (ms : list (E * mail I P)) : process I S P * list str :=
  run data sent ms Fresh.
End Loop.

(* ------------------------------------------------------------------ *)
(** ** The processes of [manage], mod.rs:51-88 *)

(** What the supervisor does next: spawn the component (62-65), tell it who it is (67), spawn the reader
    (69-79), forward (82-85). *)
Inductive sup_pc := SpawnLoop | TellIdentity | SpawnReader | Forwarding.
(** The three processes: the supervisor's position and mailbox; the component process's mailbox and what it
    has taken out of it so far ([None]: not spawned); whether the reader runs. [seen] and [posted] record
    the history: what the WebSocket has produced, what has been sent to the process [manage] returns. *)
Record system (I P : Type) := System {
  sup : sup_pc;
  sup_box : list I;
  comp_box : option (list (mail I P) * list (mail I P));
  reader : bool;
  posted : list I;
  seen : list (WsModel.message + WsModel.next_err) }.
Arguments System {I P}. Arguments sup {I P}. Arguments sup_box {I P}. Arguments comp_box {I P}.
Arguments reader {I P}. Arguments posted {I P}. Arguments seen {I P}.

(** Mailboxes are queues, a message is in the receiver's mailbox once sent (lunatic). [self]: the
    supervisor's own process handle, mailbox.this() (67). *)
Inductive sys_step {I P : Type} (self : P) : system I P -> system I P -> Prop :=
| post s i :                                   (* somebody sends an input to the returned process *)
    sys_step self s (System (sup s) (sup_box s ++ [i]) (comp_box s) (reader s) (posted s ++ [i]) (seen s))
| spawn_loop s : sup s = SpawnLoop ->          (* 62-65 *)
    sys_step self s (System TellIdentity (sup_box s) (Some ([], [])) (reader s) (posted s) (seen s))
| tell s q t : sup s = TellIdentity -> comp_box s = Some (q, t) ->   (* 67 *)
    sys_step self s (System SpawnReader (sup_box s) (Some (q ++ [WhoAmI self], t)) (reader s) (posted s) (seen s))
| spawn_reader s : sup s = SpawnReader ->      (* 69-79 *)
    sys_step self s (System Forwarding (sup_box s) (comp_box s) true (posted s) (seen s))
| forward s i b q t : sup s = Forwarding -> sup_box s = i :: b -> comp_box s = Some (q, t) ->   (* 83-84 *)
    sys_step self s (System (sup s) b (Some (q ++ [Input i], t)) (reader s) (posted s) (seen s))
| read s r q t : reader s = true -> comp_box s = Some (q, t) ->       (* 73-76 *)
    sys_step self s (System (sup s) (sup_box s) (Some (q ++ [Ws r], t)) (reader s) (posted s) (seen s ++ [r]))
| take s m q t : comp_box s = Some (m :: q, t) ->   (* 99, 116: the component receives *)
    sys_step self s (System (sup s) (sup_box s) (Some (q, t ++ [m])) (reader s) (posted s) (seen s)).
Definition sys_init {I P : Type} : system I P := System SpawnLoop [] None false [] [].
Inductive reachable {I P : Type} (self : P) : system I P -> Prop :=
| reach_init : reachable self sys_init
| reach_step s s' : reachable self s -> sys_step self s s' -> reachable self s'.

(** mod.rs:70-78, [n] rounds of the reader: what it passes on to the component process. (A panic of
    [WebSocket::next] ends it.) *)
Fixpoint reads (m : WsModel.machine) (n : nat) (w : WsModel.websocket) : list (WsModel.message + WsModel.next_err) :=
  match n with
  | O => []
  | S n' => match WsModel.ws_next m w with
            | (Ok x, w') => inl x :: reads m n' w'
            | (Err e, w') => inr e :: reads m n' w'
            | _ => []
            end
  end.
(** mod.rs:113, 202-204: the bytes the texts put on the WebSocket, each sent as a text message. *)
Definition sent_bytes (texts : list str) : str :=
  flat_map (fun t => fst (WsModel.send_message (WsModel.Text t) None)) texts.
