(** Model of puck/src/ws: frames, messages and the WebSocket state machine. *)
From Verif Require Import Base Io Utf8.

(** The machine the program runs on. [ptr_width]: bits of [usize] (the repository builds for
    wasm32-wasi, i.e. 32). [max_alloc]: the largest [Vec] allocation that succeeds (a larger one
    panics with "capacity overflow" above isize::MAX, or aborts the process); [read_sizes]: the
    buffer sizes [Read::read_to_end] happens to offer (see Io.take_to_end). *)
Record machine := Machine { ptr_width : N; max_alloc : N; read_sizes : nat -> nat }.

(** Rust [x as usize]: truncation to the pointer width. *)
Definition as_usize (m : machine) (n : N) : N := (n mod 2 ^ ptr_width m)%N.

(* ---------------------------------------------------------------- *)
(** ** puck/src/ws/frame.rs *)

(** frame.rs 156-164: [enum OpCode]. *)
Inductive opcode := OpContinue | OpBinary | OpText | OpReserved | OpTerminate | OpPing | OpPong.

(** frame.rs 11-18: [struct Frame]. *)
Record frame := Frame {
  fin : bool; rsv1 : bool; rsv2 : bool; rsv3 : bool; op_code : opcode; decoded : str }.

(** frame.rs 182-193: [enum ParseFrameError]. *)
Inductive pf_err := MaskNotSet | PfIoError | InvalidOpCode | InsufficientData | WaitForNextFrame (n : N).

(** frame.rs 35-48: the [match first & 0x0F]. [None] is the InvalidOpCode arm. *)
Definition opcode_of (n : N) : option opcode :=
  if N.eqb n 0 then Some OpContinue
  else if N.eqb n 1 then Some OpText
  else if N.eqb n 2 then Some OpBinary
  else if (N.leb 3 n && N.leb n 7)%bool then Some OpReserved
  else if N.eqb n 8 then Some OpTerminate
  else if N.eqb n 9 then Some OpPing
  else if N.eqb n 10 then Some OpPong
  else if (N.leb 11 n && N.leb n 15)%bool then Some OpReserved
  else None.

(** frame.rs 167-179: [OpCode::code]. *)
Definition code (o : opcode) : N :=
  match o with
  | OpContinue => 0 | OpBinary => 2 | OpText => 1 | OpReserved => 3
  | OpTerminate => 8 | OpPing => 9 | OpPong => 10
  end%N.

(** [b & mask != 0] on a [u8] (frame.rs 31-35, 50). *)
Definition bit_set (b : byte) (mask : N) : bool := negb (N.eqb (N.land (b2n b) mask) 0).

(** byteorder [NetworkEndian] decoding used by [read_uint] (frame.rs 53-54). *)
Definition read_be (d : str) : N := fold_left (fun a c => (a * 256 + b2n c)%N) d 0%N.

(** frame.rs 52-56: the declared payload length. [read_uint::<NetworkEndian>(k)] is a
    [read_exact] of k bytes. *)
Definition read_length (second : byte) (b : bufreader) : res ioerr N * bufreader :=
  let l := N.land (b2n second) 127 in
  if N.eqb l 126 then
    match read_exact 2 b with
    | (Ok d, b') => (Ok (read_be d), b')
    | (Err e, b') => (Err e, b') | (Panic, b') => (Panic, b') | (OutOfFuel, b') => (OutOfFuel, b')
    end
  else if N.eqb l 127 then
    match read_exact 8 b with
    | (Ok d, b') => (Ok (read_be d), b')
    | (Err e, b') => (Err e, b') | (Panic, b') => (Panic, b') | (OutOfFuel, b') => (OutOfFuel, b')
    end
  else (Ok l, b).

(** frame.rs 78-81: the unmasking loop; [i] is the index of the first byte of [enc]. *)
Fixpoint unmask (k : byte * byte * byte * byte) (i : nat) (enc : str) : str :=
  match enc with
  | [] => []
  | c :: enc' =>
      let '(k0, k1, k2, k3) := k in
      let kb := match Nat.modulo i 4 with O => k0 | S O => k1 | S (S O) => k2 | _ => k3 end in
      n2b (N.lxor (b2n c) (b2n kb)) :: unmask k (S i) enc'
  end.

(** frame.rs 62-84: masking key, payload and unmasking, for [payload_length > 0]. The key is read
    with one plain [read] (line 64). [Vec::with_capacity(payload_length as usize)] (line 68) fails
    when the allocation is too large, as does growing the vector past it. *)
Definition read_payload (m : machine) (fin : bool) (len : N) (b : bufreader)
  : res pf_err str * bufreader :=
  match br_read 4 b with
  | (Ok [k0; k1; k2; k3], b1) =>
      if N.ltb (max_alloc m) (as_usize m len) then (Panic, b1)
      else
        match take_to_end (read_sizes m) len b1 with
        | (Ok enc, b2) =>
            let n := N.of_nat (length enc) in
            if N.ltb (max_alloc m) n then (Panic, b2)
            else if negb (N.eqb n (as_usize m len)) then
              if (negb fin && N.ltb n len)%bool then (Err (WaitForNextFrame (len - n)%N), b2)
              else (Err PfIoError, b2)
            else (Ok (unmask (k0, k1, k2, k3) 0 enc), b2)
        | (Err _, b2) => (Err PfIoError, b2)
        | (Panic, b2) => (Panic, b2)
        | (OutOfFuel, b2) => (OutOfFuel, b2)
        end
  | (Ok _, b1) => (Err InsufficientData, b1)
  | (Err _, b1) => (Err PfIoError, b1)
  | (Panic, b1) => (Panic, b1)
  | (OutOfFuel, b1) => (OutOfFuel, b1)
  end.

(** Default capacity of [BufReader::new] (frame.rs 23). *)
Definition frame_cap : nat := N.to_nat 8192.

(** frame.rs 22-97: [Frame::parse]. The [BufReader] is created here and dropped at return, so what
    is left for the next call is only the transport ([br_in]). *)
Definition frame_parse (m : machine) (s : stream) : res pf_err frame * stream :=
  match br_read 2 (BR [] frame_cap s) with
  | (Ok [first; second], b1) =>
      match opcode_of (N.land (b2n first) 15) with
      | None => (Err InvalidOpCode, br_in b1)
      | Some op =>
          let masked := bit_set second 128 in
          let fin := bit_set first 128 in
          match read_length second b1 with
          | (Ok len, b2) =>
              if (N.ltb 0 len && negb masked)%bool then (Err MaskNotSet, br_in b2)
              else if N.ltb 0 len then
                match read_payload m fin len b2 with
                | (Ok d, b3) =>
                    (Ok (Frame fin (bit_set first 64) (bit_set first 32) (bit_set first 16) op d), br_in b3)
                | (Err e, b3) => (Err e, br_in b3)
                | (Panic, b3) => (Panic, br_in b3)
                | (OutOfFuel, b3) => (OutOfFuel, br_in b3)
                end
              else (Ok (Frame fin (bit_set first 64) (bit_set first 32) (bit_set first 16) op []), br_in b2)
          | (Err _, b2) => (Err PfIoError, br_in b2)
          | (Panic, b2) => (Panic, br_in b2)
          | (OutOfFuel, b2) => (OutOfFuel, br_in b2)
          end
      end
  | (Ok _, b1) => (Err InsufficientData, br_in b1)
  | (Err _, b1) => (Err PfIoError, br_in b1)
  | (Panic, b1) => (Panic, br_in b1)
  | (OutOfFuel, b1) => (OutOfFuel, br_in b1)
  end.

(** frame.rs 143-151: [Frame::format_length]; [u16::MAX] is 65535. *)
Definition format_length (len : N) : N :=
  if N.ltb len 126 then len else if N.ltb len 65535 then 126%N else 127%N.

(** byteorder [write_u16/u64::<NetworkEndian>]: [k] bytes, most significant first. *)
Fixpoint write_be (k : nat) (n : N) : str :=
  match k with
  | O => []
  | S k' => n2b (N.shiftr n (8 * N.of_nat k')) :: write_be k' n
  end.

(** frame.rs 119-141: [Frame::format], as the list of [write_all] calls it makes. *)
Definition frame_format (f : frame) : list str :=
  let one := N.lor (N.lor (N.lor (N.lor (code (op_code f)) (if fin f then 128 else 0))
                 (if rsv1 f then 64 else 0)) (if rsv2 f then 32 else 0)) (if rsv3 f then 16 else 0) in
  let len := N.of_nat (length (decoded f)) in
  let two := format_length len in
  [n2b one; n2b two] ::
  (if (N.leb 126 len && N.ltb len 65535)%bool then [write_be 2 len]
   else if N.leb 126 len then [write_be 8 len] else []).

(** message.rs 11-21: [enum Message]. *)
Inductive message :=
| Ping (p : option str) | Pong (p : option str) | Text (s : str) | Binary (b : str).

(** frame.rs 201-221: [impl From<Message> for Frame]. *)
Definition frame_of_message (msg : message) : frame :=
  Frame true false false false
    (match msg with Ping _ => OpPing | Pong _ => OpPong | Text _ => OpText | Binary _ => OpBinary end)
    (match msg with
     | Text s => s | Binary b => b
     | Ping (Some p) | Pong (Some p) => p
     | Ping None | Pong None => []
     end).

(* ---------------------------------------------------------------- *)
(** ** puck/src/ws/send.rs *)

(** send.rs 25-33: [SendFrameError] (only IoError is ever constructed). *)
Inductive send_err := EncodeFrameError | SendIoError.

(** send.rs 12-17: [send_frame]: the header writes, then the payload with one [write_all].
    [budget]: how many more bytes the transport accepts (see Io.write_calls). *)
Definition send_frame (f : frame) (budget : option nat) : str * res send_err unit :=
  let '(o, ok) := write_calls (frame_format f ++ [decoded f]) budget in
  (o, if ok then Ok tt else Err SendIoError).

(** send.rs 8-10: [send]. *)
Definition send_message (msg : message) (budget : option nat) : str * res send_err unit :=
  send_frame (frame_of_message msg) budget.

(* ---------------------------------------------------------------- *)
(** ** puck/src/ws/message.rs *)

(** message.rs 103-111: [enum DecodeMessageError]. *)
Inductive dm_err := ClientProtocolViolation | ClientSentCloseFrame.

(** message.rs 37-57 and 80-97: the (identical) matches building the message from the opcode of
    the first frame and the whole payload. *)
Definition build_message (op : opcode) (payload : str) : res dm_err message :=
  match op with
  | OpBinary => Ok (Binary payload)
  | OpText => if valid_utf8 payload then Ok (Text payload) else Err ClientProtocolViolation
  | OpPing => Ok (Ping (match payload with [] => None | _ => Some payload end))
  | OpPong => Ok (Pong (match payload with [] => None | _ => Some payload end))
  | _ => Err ClientProtocolViolation
  end.

(** message.rs 64-99: the continuation loop. [payload.extend] (line 78) grows the vector, which
    fails like any allocation above [max_alloc]. *)
Fixpoint msg_loop (m : machine) (fuel : nat) (op : opcode) (payload : str) (s : stream)
  : res dm_err message * stream :=
  match fuel with
  | O => (OutOfFuel, s)
  | S fuel' =>
      match frame_parse m s with
      | (Ok f, s') =>
          match op_code f with
          | OpTerminate => (Err ClientSentCloseFrame, s')
          | OpContinue =>
              let payload' := payload ++ decoded f in
              if N.ltb (max_alloc m) (N.of_nat (length payload')) then (Panic, s')
              else if fin f then (build_message op payload', s')
              else msg_loop m fuel' op payload' s'
          | _ => (Err ClientProtocolViolation, s')
          end
      | (Err _, s') => (Err ClientProtocolViolation, s')
      | (Panic, s') => (Panic, s')
      | (OutOfFuel, s') => (OutOfFuel, s')
      end
  end.

(** message.rs 25-100: [Message::next]. The stream handle is cloned, i.e. shared: what one
    [Frame::parse] took from the socket is gone for the next. *)
Definition msg_next (m : machine) (s : stream) : res dm_err message * stream :=
  match frame_parse m s with
  | (Ok f, s') =>
      match op_code f with
      | OpTerminate => (Err ClientSentCloseFrame, s')
      | op => if fin f then (build_message op (decoded f), s')
              else msg_loop m (S (stream_size s')) op (decoded f) s'
      end
  | (Err _, s') => (Err ClientProtocolViolation, s')
  | (Panic, s') => (Panic, s')
  | (OutOfFuel, s') => (OutOfFuel, s')
  end.

(* ---------------------------------------------------------------- *)
(** ** puck/src/ws/websocket.rs *)

(** websocket.rs 15-34: the WebSocket and its state, with the two directions of its socket: what is
    still to be read, what has been written, and how many more bytes the peer accepts. *)
Inductive ws_state := WsOpen | WsClosed.
Record websocket := WS { ws_st : ws_state; ws_in : stream; ws_out : str; ws_budget : option nat }.

(** websocket.rs 38-43: [WebSocket::new]. *)
Definition ws_new (s : stream) (budget : option nat) : websocket := WS WsOpen s [] budget.

(** websocket.rs 119-129: [NextMessageError]. *)
Inductive next_err := ClientError | ConnectionClosed.

(** Writing a frame to the socket of [w]. *)
Definition ws_write (f : frame) (w : websocket) : res send_err unit * websocket :=
  let '(o, r) := send_frame f (ws_budget w) in
  (r, WS (ws_st w) (ws_in w) (ws_out w ++ o)
         (match ws_budget w with None => None | Some n => Some (n - length o) end)).

(** websocket.rs 131-145: [send_close_frame]; a failed write panics ([expect]). *)
Definition close_frame : frame := Frame true false false false OpTerminate [].
Definition send_close (w : websocket) : bool * websocket :=
  match ws_write close_frame w with (Ok _, w') => (true, w') | (_, w') => (false, w') end.

(** websocket.rs 46-48: [WebSocket::send] (the state is not consulted). *)
Definition ws_send (msg : message) (w : websocket) : res send_err unit * websocket :=
  ws_write (frame_of_message msg) w.

(** websocket.rs 61-73: [WebSocket::close]; consumes the WebSocket. *)
Definition ws_close (w : websocket) : res send_err unit * websocket :=
  match ws_st w with
  | WsOpen => let '(ok, w') := send_close w in if ok then (Ok tt, w') else (Panic, w')
  | WsClosed => (Ok tt, w)
  end.

(** websocket.rs 84-117: [Iterator::next] (always [Some]). *)
Definition ws_next (m : machine) (w : websocket) : res next_err message * websocket :=
  match ws_st w with
  | WsClosed => (Err ConnectionClosed, w)
  | WsOpen =>
      match msg_next m (ws_in w) with
      | (Ok msg, s') =>
          let w1 := WS WsOpen s' (ws_out w) (ws_budget w) in
          match msg with
          | Ping p =>
              let pong := Frame true false false false OpPong (match p with Some d => d | None => [] end) in
              match ws_write pong w1 with
              | (Ok _, w2) => (Ok msg, w2)
              | (_, w2) => (Panic, w2)                      (* expect("failed to send pong") *)
              end
          | _ => (Ok msg, w1)
          end
      | (Err ClientProtocolViolation, s') => (Err ClientError, WS WsOpen s' (ws_out w) (ws_budget w))
      | (Err ClientSentCloseFrame, s') =>
          let '(ok, w2) := send_close (WS WsClosed s' (ws_out w) (ws_budget w)) in
          if ok then (Err ConnectionClosed, w2) else (Panic, w2)
      | (Panic, s') => (Panic, WS WsOpen s' (ws_out w) (ws_budget w))
      | (OutOfFuel, s') => (OutOfFuel, WS WsOpen s' (ws_out w) (ws_budget w))
      end
  end.

(** websocket.rs 76-81: [make_copy]: a second handle with its own copy of the state flag on the
    same socket. The model keeps the shared socket in one of the two and passes it over on use. *)
Definition ws_with_state (st : ws_state) (w : websocket) : websocket :=
  WS st (ws_in w) (ws_out w) (ws_budget w).
