(** Several WebSocket handles on one socket: puck/src/ws/websocket.rs:74-81 [make_copy]. *)
From Verif Require Import Base Io WsModel.

(** The handles a program has, each with its own copy of the state flag ([None]: used up by [close], which takes
    [self]), and the socket they share (the flag in [hd_sock] is not used). *)
Record handles := Handles { hd_states : list (option ws_state); hd_sock : websocket }.
(** websocket.rs:38-43 [WebSocket::new]: one handle. *)
Definition first_handle (s : stream) (budget : option nat) : handles := Handles [Some WsOpen] (ws_new s budget).

(** A call: which handle, and what. *)
Inductive hcall := CNext (i : nat) | CSend (i : nat) (msg : message) | CClose (i : nat) | CCopy (i : nat).
Definition set_state (i : nat) (x : option ws_state) (l : list (option ws_state)) : list (option ws_state) :=
  firstn i l ++ x :: skipn (S i) l.
(** The WebSocket behind handle [i]: its flag, and the shared socket (websocket.rs:20-23, 56-58). *)
Definition handle_ws (hs : handles) (i : nat) : option websocket :=
  match nth i (hd_states hs) None with Some st => Some (ws_with_state st (hd_sock hs)) | None => None end.
(** One call; [None]: the handle does not exist (any more), or the call panics. websocket.rs:84-117 ([next]), 46-48
    ([send]), 61-73 ([close]), 74-81 ([make_copy]: the clone of the stream is the same socket, the flag is copied). *)
Definition h_call (m : machine) (c : hcall) (hs : handles) : option handles :=
  match c with
  | CNext i => match handle_ws hs i with
      | Some w => match ws_next m w with
                  | (Ok _, w') | (Err _, w') => Some (Handles (set_state i (Some (ws_st w')) (hd_states hs)) w')
                  | _ => None
                  end
      | None => None
      end
  | CSend i msg => match handle_ws hs i with
      | Some w => match ws_send msg w with
                  | (Ok _, w') | (Err _, w') => Some (Handles (set_state i (Some (ws_st w')) (hd_states hs)) w')
                  | _ => None
                  end
      | None => None
      end
  | CClose i => match handle_ws hs i with
      | Some w => match ws_close w with
                  | (Ok _, w') | (Err _, w') => Some (Handles (set_state i None (hd_states hs)) w')
                  | _ => None
                  end
      | None => None
      end
  | CCopy i => match nth i (hd_states hs) None with
      | Some st => Some (Handles (hd_states hs ++ [Some st]) (hd_sock hs))
      | None => None
      end
  end.
Fixpoint h_run (m : machine) (cs : list hcall) (hs : handles) : option handles :=
  match cs with
  | [] => Some hs
  | c :: cs' => match h_call m c hs with Some hs' => h_run m cs' hs' | None => None end
  end.
