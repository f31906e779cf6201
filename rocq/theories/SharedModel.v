(** Two processes writing to one socket: puck_liveview/src/component/mod.rs:62-79 gives the component process a copy
    of the WebSocket (websocket.rs:76-81) and keeps the original for the reader process. Writes of two processes
    reach the socket in any order, one [write_all] call at a time. *)
From Verif Require Import Base Io WsModel ComponentModel.

(** send.rs:12-17, frame.rs:119-141: the [write_all] calls of one frame: the two header bytes, the extended length if
    there is one, the payload. *)
Definition frame_calls (f : frame) : list str := frame_format f ++ [decoded f].

(** websocket.rs:84-117, what one call of [WebSocket::next] with the state [st] and the result [r] writes:
    a pong for a ping (90-101), a close frame when the peer's close frame is read (105-108), else nothing. *)
Definition reply (st : ws_state) (r : message + next_err) : list frame :=
  match st, r with
  | WsOpen, inl (Ping p) => [Frame true false false false OpPong (match p with Some d => d | None => [] end)]
  | WsOpen, inr ConnectionClosed => [close_frame]
  | _, _ => []
  end.
(** component/mod.rs:70-78, [n] rounds of the reader process: the frames it writes. *)
Fixpoint replies (m : machine) (n : nat) (w : websocket) : list frame :=
  match n with
  | O => []
  | S n' => match ws_next m w with
            | (Ok x, w') => reply (ws_st w) (inl x) ++ replies m n' w'
            | (Err e, w') => reply (ws_st w) (inr e) ++ replies m n' w'
            | _ => []
            end
  end.
(** component/mod.rs:113, 202-204: the frames the component process writes. *)
Definition updates_sent (texts : list str) : list frame := map (fun t => frame_of_message (Text t)) texts.

(** A schedule: [c] is [a] and [b] merged, each kept in its order. *)
Inductive interleave {A : Type} : list A -> list A -> list A -> Prop :=
| il_nil : interleave [] [] []
| il_left x a b c : interleave a b c -> interleave (x :: a) b (x :: c)
| il_right x a b c : interleave a b c -> interleave a (x :: b) (x :: c).

(** The bytes the client may receive when the reader process makes [n] rounds on [w] and the component process sends
    [texts]: the calls of both, in any order that keeps the order of each. *)
Definition shared_output (m : machine) (n : nat) (w : websocket) (texts : list str) (out : str) : Prop :=
  exists calls, interleave (flat_map frame_calls (replies m n w)) (flat_map frame_calls (updates_sent texts)) calls /\
    out = concat calls.
(** The same if whole frames, and not calls, were written at a time (say, under a lock, or with one call per frame). *)
Definition whole_output (m : machine) (n : nat) (w : websocket) (texts : list str) (out : str) : Prop :=
  exists fs, interleave (replies m n w) (updates_sent texts) fs /\ out = concat (flat_map frame_calls fs).
