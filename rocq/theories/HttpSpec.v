(** What HTTP/1.1 messages look like (RFC 7230 section 3), independent of puck. *)
From Verif Require Import Base.

Definition CRLF : str := [x0d; x0a].
Definition alnum : str := bs "abcdefghijklmnopqrstuvwxyzABCDEFGHIJKLMNOPQRSTUVWXYZ0123456789".
(** 3.2.6 tchar *)
Definition tchar (b : byte) : Prop := In b (alnum ++ bs "!#$%&'*+-.^_`|~").
(** 2.7 / RFC 3986: unreserved, reserved, percent *)
Definition target_char (b : byte) : Prop := In b (alnum ++ bs "-._~:/?#[]@!$&'()*+,;=%").
(** 3.2 field-content: HTAB, SP, VCHAR, obs-text *)
Definition field_char (b : byte) : Prop := b2n b = 9%N \/ (32 <= b2n b <= 126)%N \/ (128 <= b2n b)%N.
(** 3.1.2 reason-phrase, ASCII only *)
Definition reason_char (b : byte) : Prop := b2n b = 9%N \/ (32 <= b2n b <= 126)%N.
(** 3.2.3 OWS *)
Definition blank (b : byte) : Prop := b = x20 \/ b = x09.

(** A header field as it stands on its line: name ":" OWS value OWS CRLF *)
Record field := Field { f_name : str; f_pre : str; f_value : str; f_post : str }.
Definition field_ok (f : field) : Prop :=
  f_name f <> [] /\ Forall tchar (f_name f) /\
  Forall blank (f_pre f) /\ Forall blank (f_post f) /\
  Forall field_char (f_value f) /\
  (forall c v, f_value f = c :: v -> ~ blank c) /\ (forall c v, f_value f = v ++ [c] -> ~ blank c).
Definition field_text (f : field) : str := f_name f ++ bs ":" ++ f_pre f ++ f_value f ++ f_post f ++ CRLF.
Definition field_pair (f : field) : str * str := (f_name f, f_value f).
(** name ": " value, as most implementations write it *)
Definition plain_field (kv : str * str) : field := Field (fst kv) (bs " ") (snd kv) [].

Definition request_head (meth target : str) (fs : list field) : str :=
  meth ++ bs " " ++ target ++ bs " HTTP/1.1" ++ CRLF ++ flat_map field_text fs ++ CRLF.
Definition request_head_ok (meth target : str) (fs : list field) : Prop :=
  meth <> [] /\ Forall tchar meth /\ target <> [] /\ Forall target_char target /\
  Forall field_ok fs /\ length fs <= 20.

(** three decimal digits *)
Definition code_text (code : N) : str :=
  [n2b (48 + code / 100); n2b (48 + (code / 10) mod 10); n2b (48 + code mod 10)]%N.
Definition response_head (code : N) (reason : str) (fs : list field) : str :=
  bs "HTTP/1.1 " ++ code_text code ++ bs " " ++ reason ++ CRLF ++ flat_map field_text fs ++ CRLF.
Definition response_head_ok (code : N) (reason : str) (fs : list field) : Prop :=
  (100 <= code <= 999)%N /\ Forall reason_char reason /\ Forall field_ok fs /\ length fs <= 20.

(** A complete head: it ends in an empty line and no shorter prefix does. *)
Definition complete_head (h : str) : Prop :=
  (exists p, h = p ++ CRLF ++ CRLF) /\ (forall p q, h = p ++ CRLF ++ CRLF ++ q -> q = []).
(** No prefix of [s] is a complete head. *)
Definition no_head (s : str) : Prop := forall p q, s <> p ++ CRLF ++ CRLF ++ q.

(** Which URI a request with the given Host, method and target addresses (RFC 7230 5.3, 5.5, for
    plain HTTP): absolute-form, origin-form, and puck's reading of CONNECT. *)
Inductive addressed (host meth target : str) : str -> Prop :=
| absolute_form t : target = bs "http://" ++ t \/ target = bs "https://" ++ t -> addressed host meth target target
| origin_form t : target = bs "/" ++ t -> addressed host meth target (bs "http://" ++ host ++ target)
| connect_form : to_lower meth = bs "connect" ->
    (forall t, target <> bs "http://" ++ t /\ target <> bs "https://" ++ t /\ target <> bs "/" ++ t) ->
    addressed host meth target (bs "http://" ++ host ++ bs "/").

(** [n] is [k] in lower case. *)
Definition capitals : str := bs "ABCDEFGHIJKLMNOPQRSTUVWXYZ".
Definition smalls : str := bs "abcdefghijklmnopqrstuvwxyz".
Definition in_lower_case (k n : str) : Prop :=
  Forall2 (fun c d => In (c, d) (combine capitals smalls) \/ d = c /\ ~ In c capitals) k n.

(** Field names are case-insensitive. *)
Definition named (name : str) (kv : str * str) : Prop := to_lower (fst kv) = name.

(** Byte-wise (lexicographic) order of strings. *)
Definition bytes_lt (a b : str) : Prop :=
  (exists y b', b = a ++ y :: b') \/
  (exists p x y a' b', a = p ++ x :: a' /\ b = p ++ y :: b' /\ (b2n x < b2n y)%N).

(** Reading a serialised MIME type: essence *( ";" name "=" ( token / quoted-string ) ), where a
    backslash in a quoted string makes the next byte literal. *)
Fixpoint until_byte (c : byte) (s : str) : str * str :=
  match s with
  | [] => ([], [])
  | x :: s' => if byte_eqb x c then ([], s) else let '(a, b) := until_byte c s' in (x :: a, b)
  end.
(** [unquote s]: the contents up to the closing quote, and what follows it. *)
Fixpoint unquote (s : str) : option (str * str) :=
  match s with
  | [] => None
  | x22 :: r => Some ([], r)
  | x5c :: c :: r => option_map (fun p => (c :: fst p, snd p)) (unquote r)
  | c :: r => option_map (fun p => (c :: fst p, snd p)) (unquote r)
  end.
Fixpoint mime_params (fuel : nat) (s : str) : option (list (str * str)) :=
  match fuel, s with
  | _, [] => Some []
  | S n, x3b :: r =>
      match until_byte x3d r with
      | (name, x3d :: x22 :: r') =>
          match unquote r' with
          | Some (v, r'') => option_map (cons (name, v)) (mime_params n r'')
          | None => None
          end
      | (name, x3d :: r') => let '(v, r'') := until_byte x3b r' in option_map (cons (name, v)) (mime_params n r'')
      | _ => None
      end
  | _, _ => None
  end.
Definition mime_read (s : str) : option (str * list (str * str)) :=
  let '(e, r) := until_byte x3b s in option_map (pair e) (mime_params (length s) r).
