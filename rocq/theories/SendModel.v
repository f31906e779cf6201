(** Writing a request, and what is left of it afterwards: [Request::write] takes the request by mutable reference, and
    [io::copy] reads from its body. *)
From Verif Require Import Base HMap Num Io HttpModel.

(** [std::io::copy] from a body to a transport that takes [budget] more bytes ([None]: any number): read a chunk, write
    it, until a read gives nothing. A chunk that could not be written whole has been read all the same. What reached the
    transport, the result, and the body afterwards. *)
Fixpoint copy_loop (fuel : nat) (sz : nat -> nat) (i : nat) (b : hbody) (budget : option nat) : str * (res ioerr unit * hbody) :=
  match fuel with
  | O => ([], (OutOfFuel, b))
  | S fuel' =>
      match body_read br_read (sz i) b with
      | (Ok [], b') => ([], (Ok tt, b'))
      | (Ok d, b') =>
          match budget with
          | None => let '(o, r) := copy_loop fuel' sz (S i) b' None in (d ++ o, r)
          | Some n => if Nat.leb (length d) n
                      then let '(o, r) := copy_loop fuel' sz (S i) b' (Some (n - length d)) in (d ++ o, r)
                      else (firstn n d, (Err EOther, b'))
          end
      | (Err EInterrupted, b') => copy_loop fuel' sz (S i) b' budget
      | (Err e, b') => ([], (Err e, b'))
      | (Panic, b') => ([], (Panic, b'))
      | (OutOfFuel, b') => ([], (OutOfFuel, b'))
      end
  end.
Definition copy_fuel (b : hbody) : nat := S (length (br_buf (b_reader b)) + stream_size (br_in (b_reader b))).

(** puck/src/request/mod.rs:119-129 [Request::write] again (as [request_write] of HttpModel.v), with the request it
    leaves behind. *)
Definition request_send {U} (ev : env U) (sz : nat -> nat) (r : request U) (budget : option nat)
  : str * res ioerr unit * request U :=
  let calls := [method_text (rq_method r); bs " "; url_path ev (rq_url r); bs " "; bs "HTTP/1.1" ++ [x0d; x0a]]
               ++ map header_line (rq_headers r) ++ [[x0d; x0a]] in
  match write_calls calls budget with
  | (out, false) => (out, Err EOther, r)
  | (out, true) =>
      let '(o, (copied, b')) := copy_loop (copy_fuel (rq_body r)) sz 0 (rq_body r)
                                  (match budget with Some n => Some (n - length out) | None => None end) in
      (out ++ o, copied, Request (rq_headers r) (rq_method r) b' (rq_url r))
  end.

(** puck/src/response/encoder.rs:20-34 [Encoder::write_tcp_stream] again (as [encode] of HttpModel.v): it takes the encoder
    by mutable reference and [io::copy] reads from the response's body; with the response the encoder holds afterwards. *)
Definition encoder_send (sz : nat -> nat) (r : response) (budget : option nat) : str * res ioerr unit * response :=
  let calls := (bs "HTTP/1.1 " ++ dec (rs_status r) ++ bs " " ++ rs_reason r ++ [x0d; x0a])
               :: map header_line (sort_headers (rs_headers r)) ++ [[x0d; x0a]] in
  match write_calls calls budget with
  | (out, false) => (out, Err EOther, r)
  | (out, true) =>
      let '(o, (copied, b')) := copy_loop (copy_fuel (rs_body r)) sz 0 (rs_body r)
                                  (match budget with Some n => Some (n - length out) | None => None end) in
      (out ++ o, copied, Response (rs_headers r) b' (rs_status r) (rs_reason r))
  end.
(** encoder.rs:15-34: one encoder used for a series of transports, each with its own buffer sizes and the number of bytes it takes
    ([None]: any number): what each got, and the response the encoder holds in the end. *)
Fixpoint encoder_series (uses : list ((nat -> nat) * option nat)) (r : response) : list (str * res ioerr unit) * response :=
  match uses with
  | [] => ([], r)
  | (sz, budget) :: uses' =>
      let '(out, result, r1) := encoder_send sz r budget in
      let '(outs, r2) := encoder_series uses' r1 in ((out, result) :: outs, r2)
  end.
