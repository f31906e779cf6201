(** Model of the WebSocket handshake: puck/src/ws/upgrade.rs and Stream::upgrade in puck/src/core/mod.rs. *)
From Verif Require Import Base HMap Io WsModel HttpModel Sha1.

(** puck/src/ws/upgrade.rs:10-21 [should_upgrade]. *)
Definition should_upgrade {U} (r : request U) : bool :=
  match get (bs "Upgrade") (rq_headers r) with
  | Some v => str_eqb (to_lower v) (bs "websocket")
  | None => false
  end &&
  match get (bs "Connection") (rq_headers r) with
  | Some v => contains (bs "upgrade") (to_lower v)
  | None => false
  end.

(** puck/src/ws/upgrade.rs:24 [GUID]. *)
Definition GUID : str := bs "258EAFA5-E914-47DA-95CA-C5AB0DC85B11".

(** puck/src/ws/upgrade.rs:55-62 [compute_accept_header]; [hash] is the crate's SHA-1. *)
Definition accept_header (hash : str -> str) (key : str) : str := base64 (hash (key ++ GUID)).

(** The response built in puck/src/ws/upgrade.rs:42-48. *)
Definition switching (hash : str -> str) (key : str) : response :=
  rsb_build (rsb_status 101 (bs "Web Socket Protocol Handshake")
    (rsb_header (bs "Connection") (bs "Upgrade")
    (rsb_header (bs "Upgrade") (bs "websocket")
    (rsb_header (bs "Sec-WebSocket-Accept") (accept_header hash key) rsb_new)))).

(** puck/src/ws/upgrade.rs:30-53 [perform_upgrade]: what is written, and the returned bool. *)
Definition perform_upgrade {U} (hash : str -> str) (sz : nat -> nat) (r : request U) (budget : option nat)
  : str * res unit bool :=
  match get (bs "Sec-WebSocket-Key") (rq_headers r) with
  | None => let '(out, res) := write_response sz err_400 budget in (out, res_map (fun _ => false) res)
  | Some key => let '(out, res) := write_response sz (switching hash key) budget in (out, res_map (fun _ => true) res)
  end.

(** The transport as the stream handed to the handler sees it: [Request::parse] reads through its own
    [BufReader] (request/mod.rs:48), so whatever that reader has buffered is gone (it stays in the
    request's body); only the unread events remain (core/mod.rs:48, 58 clone the stream). *)
Definition handler_stream {U} (r : request U) : stream := br_in (b_reader (rq_body r)).

Definition budget_left (budget : option nat) (out : str) : option nat :=
  match budget with None => None | Some n => Some (n - length out) end.

(** puck/src/core/mod.rs:131-143 [Stream::upgrade]: [Ok (Some ws)] is Ok(ws), [Ok None] is
    Err(UsedStream). [ws_out] of the new WebSocket counts only what is sent after the handshake. *)
Definition stream_upgrade {U} (hash : str -> str) (sz : nat -> nat) (r : request U) (budget : option nat)
  : str * res unit (option websocket) :=
  if should_upgrade r then
    match perform_upgrade hash sz r budget with
    | (out, Ok true) => (out, Ok (Some (ws_new (handler_stream r) (budget_left budget out))))
    | (out, Ok false) => (out, Ok None)
    | (out, Err e) => (out, Err e)
    | (out, Panic) => (out, Panic)
    | (out, OutOfFuel) => (out, OutOfFuel)
    end
  else
    let '(out, res) := write_response sz err_400 budget in (out, res_map (fun _ => None) res).
