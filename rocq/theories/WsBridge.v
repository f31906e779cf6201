(** How the RFC's notions appear in puck's public types; used only in statements. *)
From Verif Require Import Base Io WsModel WsSpec.

(** RFC 6455 5.2 opcode numbers and puck's [OpCode]. *)
Definition opcode_named (n : N) : opcode :=
  match n with
  | 0%N => OpContinue | 1%N => OpText | 2%N => OpBinary
  | 8%N => OpTerminate | 9%N => OpPing | 10%N => OpPong
  | _ => OpReserved
  end.

(** The [Frame] value denoting an RFC frame. *)
Definition frame_view (f : rfc_frame) : frame :=
  Frame (rf_fin f) (N.testbit (rf_rsv f) 2) (N.testbit (rf_rsv f) 1) (N.testbit (rf_rsv f) 0)
        (opcode_named (rf_op f)) (rf_payload f).

(** A machine with a sane allocator: no allocation above isize::MAX succeeds, reads ask for
    at least one byte, and [usize] has at most 64 bits. *)
Definition machine_ok (m : machine) : Prop :=
  (1 <= ptr_width m <= 64)%N /\ (max_alloc m < 2 ^ (ptr_width m - 1))%N /\ (forall i, 0 < read_sizes m i).

(** A client frame that the machine can hold. *)
Definition client_frame (m : machine) (fm : len_form) (f : rfc_frame) : Prop :=
  rfc_wf fm f /\ is_masked f = true /\ (N.of_nat (length (rf_payload f)) <= max_alloc m)%N.

(** [cs] delivers the frame [f] so that no segment boundary falls inside its first two bytes or
    inside its masking key (for an empty frame: in one segment). *)
Definition head_len (fm : len_form) : nat := 2 + form_len fm.
Definition well_cut (fm : len_form) (f : rfc_frame) (cs : list str) : Prop :=
  segments cs (rfc_encode fm f) /\
  match rf_payload f with
  | [] => cs = [rfc_encode fm f]
  | _ => ~ cut_at cs 1 /\ forall i, 0 < i < 4 -> ~ cut_at cs (head_len fm + i)
  end.

(** A frame together with the way it is written and delivered. *)
Record piece := Piece { pc_form : len_form; pc_frame : rfc_frame; pc_segs : list str }.
Definition piece_ok (m : machine) (p : piece) : Prop :=
  client_frame m (pc_form p) (pc_frame p) /\ well_cut (pc_form p) (pc_frame p) (pc_segs p).
Definition pieces_stream (ps : list piece) : stream := map Data (concat (map pc_segs ps)).

(** What an application must be handed for a message with opcode [op] and payload [d]. *)
Definition optional (d : str) : option str := match d with [] => None | _ => Some d end.

(** Call a stream reader [n] times. *)
Fixpoint times {E A} (n : nat) (f : stream -> res E A * stream) (s : stream)
  : list (res E A) * stream :=
  match n with
  | O => ([], s)
  | S n' => let '(r, s1) := f s in let '(rs, s2) := times n' f s1 in (r :: rs, s2)
  end.

(** The message an application must be handed: text 1, binary 2, ping 9, pong 10. *)
Definition message_for (op : N) (d : str) : message :=
  if N.eqb op 1 then Text d else if N.eqb op 2 then Binary d
  else if N.eqb op 9 then Ping (optional d) else Pong (optional d).
Definition deliverable (op : N) : Prop := (op = 1 \/ op = 2 \/ op = 9 \/ op = 10)%N.

(** The payload and opcode of a message (what [Ping(None)] and [Ping(Some(vec![]))] mean on the wire). *)
Definition message_op (msg : message) : N :=
  match msg with Text _ => 1 | Binary _ => 2 | Ping _ => 9 | Pong _ => 10 end%N.
Definition message_payload (msg : message) : str :=
  match msg with
  | Text d | Binary d => d
  | Ping (Some d) | Pong (Some d) => d
  | Ping None | Pong None => []
  end.

(** What a program does with a WebSocket. *)
Inductive ws_op := ONext | OSend (msg : message).
(** Run a history; [None] as soon as a call panics. Errors of [send] are ignored by the caller. *)
Definition ws_step (m : machine) (o : ws_op) (w : websocket) : option websocket :=
  match o with
  | ONext => match ws_next m w with (Ok _, w') | (Err _, w') => Some w' | _ => None end
  | OSend msg => match ws_send msg w with (Ok _, w') | (Err _, w') => Some w' | _ => None end
  end.
Fixpoint ws_run (m : machine) (ops : list ws_op) (w : websocket) : option websocket :=
  match ops with
  | [] => Some w
  | o :: ops' => match ws_step m o w with Some w' => ws_run m ops' w' | None => None end
  end.
(** The same, for a program that never sends once the connection is closed. *)
Fixpoint ws_run_polite (m : machine) (ops : list ws_op) (w : websocket) : option websocket :=
  match ops with
  | [] => Some w
  | o :: ops' =>
      match o, ws_st w with
      | OSend _, WsClosed => None
      | _, _ => match ws_step m o w with Some w' => ws_run_polite m ops' w' | None => None end
      end
  end.

(** All messages sent in a history have payloads of at most isize::MAX bytes. *)
Definition small_ops (ops : list ws_op) : Prop :=
  Forall (fun o => match o with OSend msg => (N.of_nat (length (message_payload msg)) < 2 ^ 63)%N | ONext => True end) ops.
