(** Transport reads and the std::io adaptors used by puck: [BufReader] (read, read_until),
    [Read::read_exact], [Read::take(..).read_to_end(..)], and writers that may fail.

    The transport (lunatic TcpStream, or any [impl Read]) is the list of outcomes of its future
    [read] calls. This is the only way the network enters the model, so quantifying over it covers
    every segmentation, every transport error and every point at which the peer stops. *)
From Verif Require Import Base.

Inductive ioerr := EInterrupted | EOther.

(** One outcome of a transport read: bytes ready to be returned ([Data []] is a read returning 0)
    or an error. After the last event every read returns 0 bytes (end of file). *)
Inductive ev :=
| Data (d : str)
| Fail (e : ioerr).
Definition stream := list ev.

(** [Read::read] on the transport with a buffer of [n] bytes. A chunk larger than the buffer is
    returned piecewise. *)
Definition raw_read (n : nat) (s : stream) : res ioerr str * stream :=
  match s with
  | [] => (Ok [], [])
  | Fail e :: s' => (Err e, s')
  | Data d :: s' =>
      match skipn n d with
      | [] => (Ok d, s')
      | d' => (Ok (firstn n d), Data d' :: s')
      end
  end.

(** std::io::BufReader: unread buffered bytes, capacity, inner stream. *)
Record bufreader := BR { br_buf : str; br_cap : nat; br_in : stream }.

(** [BufReader::fill_buf]: refills only when the buffer is empty. *)
Definition br_fill (b : bufreader) : res ioerr str * bufreader :=
  match br_buf b with
  | [] =>
      match raw_read (br_cap b) (br_in b) with
      | (Ok d, s') => (Ok d, BR d (br_cap b) s')
      | (Err e, s') => (Err e, BR [] (br_cap b) s')
      | (Panic, s') => (Panic, BR [] (br_cap b) s')
      | (OutOfFuel, s') => (OutOfFuel, BR [] (br_cap b) s')
      end
  | d => (Ok d, b)
  end.

(** [BufReader::read]: bypasses the buffer when it is empty and the request is at least as large
    as the buffer, otherwise one [fill_buf] and a copy. *)
Definition br_read (n : nat) (b : bufreader) : res ioerr str * bufreader :=
  if (match br_buf b with [] => true | _ => false end) && Nat.leb (br_cap b) n then
    match raw_read n (br_in b) with
    | (r, s') => (r, BR [] (br_cap b) s')
    end
  else
    match br_fill b with
    | (Ok d, b') => (Ok (firstn n d), BR (skipn n d) (br_cap b') (br_in b'))
    | (Err e, b') => (Err e, b')
    | (Panic, b') => (Panic, b')
    | (OutOfFuel, b') => (OutOfFuel, b')
    end.

Definition ev_size (e : ev) : nat := match e with Data d => S (length d) | Fail _ => 1 end.
Definition stream_size (s : stream) : nat := fold_right (fun e n => ev_size e + n) 0 s.

(** Rust [Read::read_exact] (default_read_exact): retries interrupted reads; [Err] on early EOF. *)
Fixpoint read_exact_loop (fuel n : nat) (acc : str) (b : bufreader) : res ioerr str * bufreader :=
  match n with
  | O => (Ok acc, b)
  | _ =>
      match fuel with
      | O => (OutOfFuel, b)
      | S fuel' =>
          match br_read n b with
          | (Ok [], b') => (Err EOther, b')                 (* UnexpectedEof *)
          | (Ok d, b') => read_exact_loop fuel' (n - length d) (acc ++ d) b'
          | (Err EInterrupted, b') => read_exact_loop fuel' n acc b'
          | (Err e, b') => (Err e, b')
          | (Panic, b') => (Panic, b')
          | (OutOfFuel, b') => (OutOfFuel, b')
          end
      end
  end.
Definition read_exact (n : nat) (b : bufreader) : res ioerr str * bufreader :=
  read_exact_loop (S (length (br_buf b) + stream_size (br_in b))) n [] b.

(** Rust [reader.take(limit).read_to_end(&mut buf)]. The sizes of the individual read requests
    depend on the std version and allocation; they are given by an arbitrary function [sz]
    (request [i] offers [sz i] bytes). [Take] returns 0 without touching the reader at limit 0. *)
Fixpoint take_to_end_loop (fuel : nat) (sz : nat -> nat) (i : nat) (limit : N) (acc : str)
         (b : bufreader) : res ioerr str * bufreader :=
  if N.eqb limit 0 then (Ok acc, b)
  else
    match fuel with
    | O => (OutOfFuel, b)
    | S fuel' =>
        let req := if N.ltb limit (N.of_nat (sz i)) then N.to_nat limit else sz i in
        match br_read req b with
        | (Ok [], b') => (Ok acc, b')
        | (Ok d, b') =>
            take_to_end_loop fuel' sz (S i) (limit - N.of_nat (length d))%N (acc ++ d) b'
        | (Err EInterrupted, b') => take_to_end_loop fuel' sz (S i) limit acc b'
        | (Err e, b') => (Err e, b')
        | (Panic, b') => (Panic, b')
        | (OutOfFuel, b') => (OutOfFuel, b')
        end
    end.
Definition take_to_end (sz : nat -> nat) (limit : N) (b : bufreader) : res ioerr str * bufreader :=
  take_to_end_loop (S (length (br_buf b) + stream_size (br_in b))) sz 0 limit [] b.

(** Position just after the first delimiter (memchr in [read_until]). *)
Fixpoint upto (delim : byte) (d : str) : option nat :=
  match d with
  | [] => None
  | c :: d' => if byte_eqb c delim then Some 1 else option_map S (upto delim d')
  end.

(** Rust [BufRead::read_until]: appends through the delimiter or EOF; retries interrupted reads. *)
Fixpoint read_until_loop (fuel : nat) (delim : byte) (acc : str) (b : bufreader)
  : res ioerr str * bufreader :=
  match fuel with
  | O => (OutOfFuel, b)
  | S fuel' =>
      match br_fill b with
      | (Err EInterrupted, b') => read_until_loop fuel' delim acc b'
      | (Err e, b') => (Err e, b')
      | (Panic, b') => (Panic, b')
      | (OutOfFuel, b') => (OutOfFuel, b')
      | (Ok d, b') =>
          match upto delim d with
          | Some n => (Ok (acc ++ firstn n d), BR (skipn n d) (br_cap b') (br_in b'))
          | None =>
              match d with
              | [] => (Ok acc, b')
              | _ => read_until_loop fuel' delim (acc ++ d) (BR [] (br_cap b') (br_in b'))
              end
          end
      end
  end.
Definition read_until (delim : byte) (b : bufreader) : res ioerr str * bufreader :=
  read_until_loop (S (S (stream_size (br_in b)))) delim [] b.

(** A writer: the sequence of [write_all] calls a function performs, run against a transport that
    accepts [budget] more bytes ([None]: never fails). Returns what reached the wire and whether all
    calls succeeded. The first failing call ends the function ([?] / [unwrap]). *)
Fixpoint write_calls (calls : list str) (budget : option nat) : str * bool :=
  match calls with
  | [] => ([], true)
  | c :: calls' =>
      match budget with
      | None => let '(o, ok) := write_calls calls' None in (c ++ o, ok)
      | Some n =>
          if Nat.leb (length c) n
          then let '(o, ok) := write_calls calls' (Some (n - length c)) in (c ++ o, ok)
          else (firstn n c, false)
      end
  end.
