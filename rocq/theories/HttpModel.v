(** Model of puck's HTTP layer: bodies, MIME types, requests, responses, builders.
    Sources: puck/src/body/{mod,mime}.rs, puck/src/request/{mod,builder}.rs,
    puck/src/response/{mod,builder,encoder}.rs, puck/src/lib.rs.

    Not modelled: the `fuzzing` feature, Debug implementations, logging. The crates httparse and url
    are parameters of the model (record [env]): the theorems hold for every behaviour of them, or
    state in their hypotheses what is needed. *)
From Verif Require Import Base HMap Num Utf8 Io.

(* ------------------------------------------------------------------ *)
(** ** MIME types *)

(** puck/src/body/mime.rs:13-19 [Mime]; basetype and subtype are never printed and are left out.
    A parameter is a (name, value) pair (mime.rs:28,37). *)
Record mime := Mime { essence : str; is_utf8_mime : bool; params : list (str * str) }.

(** puck/src/body/mime.rs:45-67 [HTML], [PLAIN], [BYTE_STREAM]. *)
Definition HTML : mime := Mime (bs "text/html") true [].
Definition PLAIN : mime := Mime (bs "text/plain") true [].
Definition BYTE_STREAM : mime := Mime (bs "application/octet-stream") false [].

(** puck/src/body/mime.rs:146-166 [is_http_token_code_point]. The code works on chars; all token
    characters are ASCII and every byte of a non-ASCII char is >= 128, so testing bytes is the same. *)
Definition is_token_byte (b : byte) : bool :=
  (existsb (byte_eqb b) (bs "!#$%&'*+-.^_`|~")
   || ((97 <=? b2n b) && (b2n b <=? 122))
   || ((65 <=? b2n b) && (b2n b <=? 90))
   || ((48 <=? b2n b) && (b2n b <=? 57)))%N%bool.

(** puck/src/body/mime.rs:80-87 and 94-143: each double quote or backslash is preceded by a backslash
    (the [EscapeMimeValue] iterator yields one or two chars). *)
Definition escape_byte (b : byte) : str :=
  if byte_eqb b x22 || byte_eqb b x5c then [x5c; b] else [b].
Definition escape_value (s : str) : str := flat_map escape_byte s.

(** puck/src/body/mime.rs:76-90, one parameter. *)
Definition format_param (p : str * str) : str :=
  let '(name, value) := p in
  if forallb is_token_byte value && negb (match value with [] => true | _ => false end)
  then bs ";" ++ name ++ bs "=" ++ value
  else bs ";" ++ name ++ bs "=""" ++ escape_value value ++ bs """".

(** puck/src/body/mime.rs:71-92 [format], used by [Display]. *)
Definition mime_format (m : mime) : str :=
  essence m ++ (if is_utf8_mime m then bs ";charset=utf-8" else []) ++ flat_map format_param (params m).

(* ------------------------------------------------------------------ *)
(** ** Bodies *)

(** puck/src/body/mod.rs:15-20 [Body]. The boxed reader is any state machine [R]. *)
Record body (R : Type) := Body { b_reader : R; b_mime : mime; b_length : option N; b_read : N }.
Arguments Body {R} b_reader b_mime b_length b_read.
Arguments b_reader {R} _.
Arguments b_mime {R} _.
Arguments b_length {R} _.
Arguments b_read {R} _.

(** A reader: [read] with a buffer of [n] bytes. *)
Definition reader_fn (R : Type) := nat -> R -> res ioerr str * R.

(** puck/src/body/mod.rs:98-112 [impl Read for Body]. [length - bytes_read] underflows (a panic in
    debug builds, modelled as [Panic]) when more than [length] bytes were read. *)
Definition body_read {R} (rd : reader_fn R) (n : nat) (b : body R) : res ioerr str * body R :=
  let go n' :=
    match rd n' (b_reader b) with
    | (Ok d, r') => (Ok d, Body r' (b_mime b) (b_length b) (b_read b + N.of_nat (length d))%N)
    | (Err e, r') => (Err e, Body r' (b_mime b) (b_length b) (b_read b))
    | (Panic, r') => (Panic, Body r' (b_mime b) (b_length b) (b_read b))
    | (OutOfFuel, r') => (OutOfFuel, Body r' (b_mime b) (b_length b) (b_read b))
    end in
  match b_length b with
  | None => go n
  | Some len =>
      if N.eqb len (b_read b) then (Ok [], b)
      else if N.ltb len (b_read b) then (Panic, b)
      else go (N.to_nat (N.min (len - b_read b) (N.of_nat n)))
  end.

(** [std::io::Read::read_to_end] (and the reading half of [std::io::copy]) on a body: read until a
    read returns 0; interrupted reads are retried. The sizes of the read requests, which depend on
    the std version, are an arbitrary function [sz]. Returns the chunks read. *)
Fixpoint drain_loop {R} (fuel : nat) (sz : nat -> nat) (i : nat) (rd : reader_fn R) (b : body R)
  : list str * (res ioerr unit * body R) :=
  match fuel with
  | O => ([], (OutOfFuel, b))
  | S fuel' =>
      match body_read rd (sz i) b with
      | (Ok [], b') => ([], (Ok tt, b'))
      | (Ok d, b') => let '(ds, r) := drain_loop fuel' sz (S i) rd b' in (d :: ds, r)
      | (Err EInterrupted, b') => drain_loop fuel' sz (S i) rd b'
      | (Err e, b') => ([], (Err e, b'))
      | (Panic, b') => ([], (Panic, b'))
      | (OutOfFuel, b') => ([], (OutOfFuel, b'))
      end
  end.

(** The bodies puck itself makes read from a [BufReader] or from a [Cursor]; a cursor over [s] is a
    buffered reader whose buffer holds [s] and whose source is empty. *)
Definition hbody := body bufreader.
Definition cursor (s : str) : bufreader := BR s 1 [].

Definition drain (sz : nat -> nat) (b : hbody) : list str * (res ioerr unit * hbody) :=
  drain_loop (S (length (br_buf (b_reader b)) + stream_size (br_in (b_reader b)))) sz 0 br_read b.

(** puck/src/body/mod.rs:34-41 [Body::empty]. *)
Definition body_empty : hbody := Body (cursor []) BYTE_STREAM (Some 0%N) 0%N.
(** puck/src/body/mod.rs:45-52 [Body::from_reader]. *)
Definition body_from_reader (r : bufreader) (len : option N) : hbody := Body r BYTE_STREAM len 0%N.
(** puck/src/body/mod.rs:58-67 [Body::from_string], 86-96 [From<String>], [From<&str>]. *)
Definition body_from_string (s : str) : hbody :=
  Body (cursor s) BYTE_STREAM (Some (N.of_nat (length s))) 0%N.

(** puck/src/body/mod.rs:71-75 [Body::into_bytes]. *)
Definition into_bytes (sz : nat -> nat) (b : hbody) : res ioerr str :=
  match drain sz b with
  | (ds, (Ok _, _)) => Ok (concat ds)
  | (_, (Err e, _)) => Err e
  | (_, (Panic, _)) => Panic
  | (_, (OutOfFuel, _)) => OutOfFuel
  end.
(** puck/src/body/mod.rs:79-83 [Body::into_string]: [String::with_capacity(self.length.unwrap_or(0))] panics or
    aborts the process when the declared length is more than can be allocated ([lim] bytes; at most isize::MAX);
    [read_to_string] fails on invalid UTF-8. That the data received exhausts the memory is not modelled. *)
Definition into_string (lim : N) (sz : nat -> nat) (b : hbody) : res ioerr str :=
  if N.ltb lim (match b_length b with Some n => n | None => 0%N end) then Panic
  else match into_bytes sz b with
       | Ok d => if valid_utf8 d then Ok d else Err EOther
       | r => r
       end.

(* ------------------------------------------------------------------ *)
(** ** Parameters: httparse, url, hash-map iteration order, pointer width *)

(** What [httparse::Request::parse] / [Response::parse] leave behind: the result and the fields that
    were set. [hp_headers] is the slice [headers] afterwards. *)
Inductive hp_status := HpComplete | HpPartial | HpError.
Record hp_request := HpReq { hq_status : hp_status; hq_method : option str; hq_path : option str;
                             hq_headers : list (str * str) }.
Record hp_response := HpResp { hr_status : hp_status; hr_code : option N; hr_reason : option str;
                               hr_headers : list (str * str) }.

(** The url crate: an abstract type of URLs with a parser and the accessors puck uses. *)
Record env (U : Type) := Env {
  parse_head_req : str -> hp_request;
  parse_head_resp : str -> hp_response;
  url_parse : str -> option U;
  url_path : U -> str;
  url_segments : U -> option (list str);
  (* the order in which a hash map with the given entries iterates (depends on its random state) *)
  iter_order : hmap str -> hmap str;
  usize_bits : N;
  (* the largest number of bytes one allocation may ask for (at most isize::MAX; less when memory is short) *)
  max_string : N }.
Arguments Env {U}.
Arguments parse_head_req {U} _.
Arguments parse_head_resp {U} _.
Arguments url_parse {U} _.
Arguments url_path {U} _.
Arguments url_segments {U} _.
Arguments iter_order {U} _.
Arguments usize_bits {U} _.
Arguments max_string {U} _.

(* ------------------------------------------------------------------ *)
(** ** Requests *)

(** puck/src/request/mod.rs:213-218 [Method]. *)
Inductive method := Get | Post | Head | OtherMethod (name : str).

(** puck/src/request/mod.rs:222-228 [Method::new_from_str]. *)
Definition method_from_str (s : str) : method :=
  if str_eqb (to_lower s) (bs "get") then Get
  else if str_eqb (to_lower s) (bs "post") then Post
  else OtherMethod s.

(** puck/src/request/mod.rs:231-239 [Method::write]. *)
Definition method_text (m : method) : str :=
  match m with
  | Get => bs "GET"
  | Post => bs "POST"
  | Head => bs "HEAD /"
  | OtherMethod name => name
  end.

(** puck/src/request/mod.rs:23-28 [Request]; [rq_headers] lists the entries in iteration order. *)
Record request (U : Type) := Request { rq_headers : hmap str; rq_method : method; rq_body : hbody; rq_url : U }.
Arguments Request {U} rq_headers rq_method rq_body rq_url.
Arguments rq_headers {U} _.
Arguments rq_method {U} _.
Arguments rq_body {U} _.
Arguments rq_url {U} _.

(** puck/src/request/mod.rs:171-190 [RequestParseError]. *)
Inductive request_error := RqCouldNotParse | RqUtf8Error | RqIoError | RqInvalidUrl
                         | RqMissingHeader (name : str) | RqMissingMethod.

Definition CRLFCRLF : str := [x0d; x0a; x0d; x0a].

(** puck/src/request/mod.rs:65-66 and response/mod.rs:72-73: [idx >= 3 && buf[idx-3..=idx] == CRLFCRLF]. *)
Definition ends_head (buf : str) : bool :=
  Nat.leb 4 (length buf) && str_eqb (skipn (length buf - 4) buf) CRLFCRLF.

(** puck/src/request/mod.rs:54-69 and response/mod.rs:61-76: accumulate lines until the head is
    complete. [Ok None]: a read returned 0 bytes. *)
Fixpoint head_loop (fuel : nat) (buf : str) (b : bufreader) : res ioerr (option str) * bufreader :=
  match fuel with
  | O => (OutOfFuel, b)
  | S fuel' =>
      match read_until x0a b with
      | (Err e, b') => (Err e, b')
      | (Panic, b') => (Panic, b')
      | (OutOfFuel, b') => (OutOfFuel, b')
      | (Ok [], b') => (Ok None, b')
      | (Ok l, b') => if ends_head (buf ++ l) then (Ok (Some (buf ++ l)), b') else head_loop fuel' (buf ++ l) b'
      end
  end.
Definition read_head (b : bufreader) : res ioerr (option str) * bufreader :=
  head_loop (S (length (br_buf b) + stream_size (br_in b))) [] b.

(** puck/src/request/mod.rs:73-82 and response/mod.rs:80-93: insert every header, in order; the first
    value that is not UTF-8 aborts. [None]: a Utf8Error. *)
Fixpoint insert_headers (hs : list (str * str)) (m : hmap str) : option (hmap str) :=
  match hs with
  | [] => Some m
  | (k, v) :: hs' => if valid_utf8 v then insert_headers hs' (insert k v m) else None
  end.

(** [headers.iter().find(|(k, _)| k.eq_ignore_ascii_case(name))] (request/mod.rs:85, 103-105;
    response/mod.rs:109-111). *)
Definition find_header (name : str) (m : hmap str) : option str :=
  option_map snd (find (fun kv => eq_ignore_case (fst kv) name) m).

(** [.and_then(|(_, len)| len.parse::<usize>().ok())] (request/mod.rs:106, response/mod.rs:112). *)
Definition parsed_length (bits : N) (v : option str) : option N :=
  match v with Some s => parse_uint (usize_max bits) s | None => None end.

(** puck/src/request/mod.rs:86-97: the URL of a request with the given Host, method and target. *)
Definition request_url {U} (ev : env U) (host meth target : str) : option U :=
  if starts_with (bs "http://") target || starts_with (bs "https://") target then url_parse ev target
  else if starts_with (bs "/") target then url_parse ev (bs "http://" ++ host ++ target)
  else if eq_ignore_case meth (bs "connect") then url_parse ev (bs "http://" ++ host ++ bs "/")
  else None.

(** puck/src/request/mod.rs:71-114: from a complete head and the reader behind it to a request. *)
Definition request_of_head {U} (ev : env U) (head : str) (rd : bufreader)
  : res request_error (option (request U)) :=
  let hp := parse_head_req ev head in
  match hq_status hp with
  | HpError => Err RqCouldNotParse                                      (* line 71 *)
  | _ =>
      match hq_method hp with
      | None => Err RqMissingMethod                                     (* line 72 *)
      | Some meth =>
          match insert_headers (hq_headers hp) [] with
          | None => Err RqUtf8Error                                     (* line 78 *)
          | Some m =>
              let headers := iter_order ev m in
              match find_header (bs "host") headers with
              | None => Err (RqMissingHeader (bs "Host"))               (* line 98 *)
              | Some host =>
                  match hq_path hp with
                  | None => Err RqInvalidUrl                            (* line 86 *)
                  | Some target =>
                      match request_url ev host meth target with
                      | None => Err RqInvalidUrl                        (* lines 94, 96 *)
                      | Some url =>
                          Ok (Some (Request headers (method_from_str meth)
                            (body_from_reader rd
                               (parsed_length (usize_bits ev) (find_header (bs "content-length") headers)))
                            url))
                      end
                  end
              end
          end
      end
  end.

(** puck/src/request/mod.rs:47-115 [Request::parse]. *)
Definition request_parse {U} (ev : env U) (s : stream) : res request_error (option (request U)) :=
  match read_head (BR [] (N.to_nat 10000) s) with
  | (Err _, _) => Err RqIoError
  | (Panic, _) => Panic
  | (OutOfFuel, _) => OutOfFuel
  | (Ok None, _) => Ok None
  | (Ok (Some head), rd) => request_of_head ev head rd
  end.

(** One header line (request/mod.rs:124, response/encoder.rs:29). *)
Definition header_line (kv : str * str) : str := fst kv ++ bs ": " ++ snd kv ++ [x0d; x0a].

(** puck/src/request/mod.rs:119-129 [Request::write]: the [write_all] calls, then [io::copy]. *)
Definition request_write {U} (ev : env U) (sz : nat -> nat) (r : request U) (budget : option nat)
  : str * res ioerr unit :=
  let calls := [method_text (rq_method r); bs " "; url_path ev (rq_url r); bs " "; bs "HTTP/1.1" ++ [x0d; x0a]]
               ++ map header_line (rq_headers r) ++ [[x0d; x0a]] in
  let '(chunks, (copied, _)) := drain sz (rq_body r) in
  let '(out, ok) := write_calls (calls ++ chunks) budget in
  (out, if ok then copied else Err EOther).

(** puck/src/request/mod.rs:158-161 and response/mod.rs:29-32 [copy_content_type_from_body];
    147-151, 154-156 and response 35-44 [replace_body], [take_body]. *)
Definition request_replace_body {U} (r : request U) (b : hbody) : hbody * request U :=
  (rq_body r, Request (insert (bs "Content-Type") (mime_format (b_mime b)) (rq_headers r)) (rq_method r) b (rq_url r)).
Definition request_take_body {U} (r : request U) : hbody * request U := request_replace_body r body_empty.

(* ------------------------------------------------------------------ *)
(** ** Responses *)

(** puck/src/response/mod.rs:21-26 [Response]. *)
Record response := Response { rs_headers : hmap str; rs_body : hbody; rs_status : N; rs_reason : str }.

(** puck/src/response/mod.rs:142-151 [ParseResponseError]. *)
Inductive response_error := RsIoError | RsMissingStatusCode | RsMissingReason | RsUtf8Error.

Definition response_replace_body (r : response) (b : hbody) : hbody * response :=
  (rs_body r, Response (insert (bs "Content-Type") (mime_format (b_mime b)) (rs_headers r)) b (rs_status r) (rs_reason r)).
Definition response_take_body (r : response) : hbody * response := response_replace_body r body_empty.

(** puck/src/response/mod.rs:78-120. The result of [res.parse] is ignored (line 78). *)
Definition response_of_head {U} (ev : env U) (head : str) (rd : bufreader)
  : res response_error (option response) :=
  let hp := parse_head_resp ev head in
  match insert_headers (hr_headers hp) [] with
  | None => Err RsUtf8Error
  | Some m =>
      let headers := iter_order ev m in
      match hr_code hp with
      | None => Err RsMissingStatusCode
      | Some status =>
          match hr_reason hp with
          | None => Err RsMissingReason
          | Some reason =>
              Ok (Some (Response headers
                (body_from_reader rd
                   (parsed_length (usize_bits ev) (find_header (bs "content-type") headers)))
                status reason))
          end
      end
  end.

(** puck/src/response/mod.rs:54-121 [Response::parse]. *)
Definition response_parse {U} (ev : env U) (s : stream) : res response_error (option response) :=
  match read_head (BR [] (N.to_nat 1000) s) with
  | (Err _, _) => Err RsIoError
  | (Panic, _) => Panic
  | (OutOfFuel, _) => OutOfFuel
  | (Ok None, _) => Ok None
  | (Ok (Some head), rd) => response_of_head ev head rd
  end.

(** Byte-wise string order (Rust [str] ordering). *)
Fixpoint str_leb (a b : str) : bool :=
  match a, b with
  | [], _ => true
  | _ :: _, [] => false
  | x :: a', y :: b' => if N.ltb (b2n x) (b2n y) then true else byte_eqb x y && str_leb a' b'
  end.
(** [headers.sort_unstable_by_key(|(h, _)| h.as_str())] (response/encoder.rs:27). The keys are
    distinct, so every correct sort gives the same list; insertion sort is used. *)
Fixpoint sort_insert (kv : str * str) (l : list (str * str)) : list (str * str) :=
  match l with
  | [] => [kv]
  | kv' :: l' => if str_leb (fst kv) (fst kv') then kv :: l else kv' :: sort_insert kv l'
  end.
Fixpoint sort_headers (l : list (str * str)) : list (str * str) :=
  match l with [] => [] | kv :: l' => sort_insert kv (sort_headers l') end.

(** puck/src/response/encoder.rs:20-34 [Encoder::write_tcp_stream]. *)
Definition encode (sz : nat -> nat) (r : response) (budget : option nat) : str * res ioerr unit :=
  let calls := (bs "HTTP/1.1 " ++ dec (rs_status r) ++ bs " " ++ rs_reason r ++ [x0d; x0a])
               :: map header_line (sort_headers (rs_headers r)) ++ [[x0d; x0a]] in
  let '(chunks, (copied, _)) := drain sz (rs_body r) in
  let '(out, ok) := write_calls (calls ++ chunks) budget in
  (out, if ok then copied else Err EOther).

(** puck/src/lib.rs:26-37 [err_404]. *)
Definition err_404 : response :=
  Response [(bs "Content-Type", mime_format HTML)] (body_from_string (bs "<h1>404: Not found</h1>")) 404 (bs "not found").
(** puck/src/lib.rs:40-51 [err_400]. *)
Definition err_400 : response :=
  Response [(bs "Content-Type", mime_format HTML)] (body_from_string (bs "<h1>400: bad request</h1>")) 400 (bs "bad request").

(** puck/src/lib.rs:54-57 [write_response]: a failed write panics ([unwrap]). *)
Definition write_response (sz : nat -> nat) (r : response) (budget : option nat) : str * res unit unit :=
  let '(out, res) := encode sz r budget in
  (out, match res with Ok _ => Ok tt | OutOfFuel => OutOfFuel | _ => Panic end).

(* ------------------------------------------------------------------ *)
(** ** Builders *)

(** puck/src/request/builder.rs:14-19 [RequestBuilder] and its methods. *)
Record request_builder (U : Type) := RqBuilder { qb_headers : hmap str; qb_method : option method; qb_body : option hbody; qb_url : U }.
Arguments RqBuilder {U} qb_headers qb_method qb_body qb_url.
Arguments qb_headers {U} _.
Arguments qb_method {U} _.
Arguments qb_body {U} _.
Arguments qb_url {U} _.

(** request/builder.rs:30-37 [try_new]; 24-26 [new] panics on an invalid URL. *)
Definition rqb_try_new {U} (ev : env U) (url : str) : option (request_builder U) :=
  option_map (fun u => RqBuilder [] None None u) (url_parse ev url).
(** request/builder.rs:40-43, 47-50, 53-56, 59-62. *)
Definition rqb_header {U} (k v : str) (b : request_builder U) : request_builder U :=
  RqBuilder (insert k v (qb_headers b)) (qb_method b) (qb_body b) (qb_url b).
Definition rqb_headers {U} (kvs : list (str * str)) (b : request_builder U) : request_builder U :=
  RqBuilder (extend (qb_headers b) kvs) (qb_method b) (qb_body b) (qb_url b).
Definition rqb_body {U} (bd : hbody) (b : request_builder U) : request_builder U :=
  RqBuilder (qb_headers b) (qb_method b) (Some bd) (qb_url b).
Definition rqb_method {U} (m : method) (b : request_builder U) : request_builder U :=
  RqBuilder (qb_headers b) (Some m) (qb_body b) (qb_url b).
(** request/builder.rs:71-81 [try_build] ([None] is MethodNotProvided); 65-68 [build] panics then. *)
Definition rqb_try_build {U} (b : request_builder U) : option (request U) :=
  match qb_method b with
  | None => None
  | Some m => Some (Request (qb_headers b) m (match qb_body b with Some bd => bd | None => body_empty end) (qb_url b))
  end.
Definition rqb_build {U} (b : request_builder U) : res unit (request U) :=
  match rqb_try_build b with Some r => Ok r | None => Panic end.

(** puck/src/response/builder.rs:11-17 [ResponseBuilder] (the [method] field is never used). *)
Record response_builder := RsBuilder { pb_headers : hmap str; pb_body : option hbody; pb_status : option N; pb_reason : option str }.
Definition rsb_new : response_builder := RsBuilder [] None None None.
(** response/builder.rs:37-40, 43-46, 49-52, 55-59. *)
Definition rsb_header (k v : str) (b : response_builder) : response_builder :=
  RsBuilder (insert k v (pb_headers b)) (pb_body b) (pb_status b) (pb_reason b).
Definition rsb_headers (kvs : list (str * str)) (b : response_builder) : response_builder :=
  RsBuilder (extend (pb_headers b) kvs) (pb_body b) (pb_status b) (pb_reason b).
Definition rsb_body (bd : hbody) (b : response_builder) : response_builder :=
  RsBuilder (pb_headers b) (Some bd) (pb_status b) (pb_reason b).
Definition rsb_status (code : N) (reason : str) (b : response_builder) : response_builder :=
  RsBuilder (pb_headers b) (pb_body b) (Some code) (Some reason).
(** response/builder.rs:62-69 [build]. *)
Definition rsb_build (b : response_builder) : response :=
  Response (pb_headers b) (match pb_body b with Some bd => bd | None => body_empty end)
           (match pb_status b with Some c => c | None => 200%N end)
           (match pb_reason b with Some r => r | None => [] end).
