(** The path of an http(s) URL, from the URL Standard (https://url.spec.whatwg.org, section 4.4, basic URL parser, for
    the special schemes http and https). The crate [url], which implements it, is not part of /repo; this file says what
    puck relies on (puck/src/request/mod.rs:84-97 calls Url::parse, match_url.rs:28 calls path_segments,
    request/mod.rs:121 calls path). It is a specification, written independently of the model. *)
From Verif Require Import Base.
Local Open Scope N_scope.

(** Tabs and newlines are removed, trailing control characters and spaces are stripped. *)
Definition tab_or_newline (b : byte) : bool := (b2n b =? 9) || (b2n b =? 10) || (b2n b =? 13).
Fixpoint strip_end (s : str) : str :=
  match s with
  | [] => []
  | c :: s' => match strip_end s' with [] => if b2n c <=? 32 then [] else [c] | t => c :: t end
  end.
Definition cleaned (s : str) : str := filter (fun b => negb (tab_or_newline b)) (strip_end s).

Definition is_slash (b : byte) : bool := byte_eqb b x2f || byte_eqb b x5c.
Definition starts_query (b : byte) : bool := byte_eqb b x3f || byte_eqb b x23.
Fixpoint while (p : byte -> bool) (s : str) : str :=
  match s with [] => [] | c :: s' => if p c then c :: while p s' else [] end.
Fixpoint after (p : byte -> bool) (s : str) : str :=
  match s with [] => [] | c :: s' => if p c then after p s' else s end.

(** What follows "http:" or "https:": slashes, authority, path, and then a query or fragment, which are left out. *)
Definition behind_scheme (s : str) : str :=
  if starts_with (bs "https:") s then skipn 6 s else skipn 5 s.
Definition authority (s : str) : str :=
  while (fun b => negb (is_slash b) && negb (starts_query b)) (after is_slash (behind_scheme (cleaned s))).
Definition raw_path (s : str) : str :=
  while (fun b => negb (starts_query b))
    (after (fun b => negb (is_slash b) && negb (starts_query b)) (after is_slash (behind_scheme (cleaned s)))).

(** The segments of the path: both slashes separate. *)
Fixpoint cut_slashes (s : str) : list str :=
  match s with
  | [] => [[]]
  | c :: s' => if is_slash c then [] :: cut_slashes s'
               else match cut_slashes s' with [] => [[c]] | p :: ps => (c :: p) :: ps end
  end.
Definition raw_segments (s : str) : list str :=
  match raw_path s with [] => [[]] | _ :: t => cut_slashes t end.

(** The path percent-encode set. *)
Definition hex_char (n : N) : byte := n2b (if n <? 10 then 48 + n else 55 + n).
Definition path_encoded (b : byte) : bool :=
  let n := b2n b in (n <=? 32) || (127 <=? n) || (n =? 34) || (n =? 35) || (n =? 60) || (n =? 62) || (n =? 63) || (n =? 96) || (n =? 123) || (n =? 125).
Definition encode_byte (b : byte) : str :=
  if path_encoded b then [x25; hex_char (b2n b / 16); hex_char (b2n b mod 16)] else [b].
Definition encode_segment (s : str) : str := flat_map encode_byte s.

(** Single-dot and double-dot segments, also percent-encoded. *)
Definition one_dot (s : str) : bool := str_eqb (to_lower s) (bs ".") || str_eqb (to_lower s) (bs "%2e").
Definition two_dots (s : str) : bool :=
  str_eqb (to_lower s) (bs "..") || str_eqb (to_lower s) (bs ".%2e") || str_eqb (to_lower s) (bs "%2e.") || str_eqb (to_lower s) (bs "%2e%2e").

(** [acc]: the path so far, last segment first. *)
Fixpoint resolve (acc : list str) (segs : list str) : list str :=
  match segs with
  | [] => rev acc
  | [s] => if two_dots s then rev ([] :: tl acc) else if one_dot s then rev ([] :: acc) else rev (s :: acc)
  | s :: segs' => if two_dots s then resolve (tl acc) segs' else if one_dot s then resolve acc segs' else resolve (s :: acc) segs'
  end.

Definition url_path_segments (s : str) : list str := resolve [] (map encode_segment (raw_segments s)).
Definition url_path_text (s : str) : str := flat_map (fun p => bs "/" ++ p) (url_path_segments s).

(** The path segments an origin-form request target names by itself (RFC 7230 5.3.1). *)
Definition target_segments (target : str) : list str :=
  match while (fun b => negb (starts_query b)) target with
  | [] => [[]]
  | _ :: t => resolve [] (map encode_segment (cut_slashes t))
  end.
Definition dot_segment (s : str) : Prop := one_dot s = true \/ two_dots s = true.
(** Segments that stand for themselves. *)
Definition own_byte (b : byte) : Prop := is_slash b = false /\ path_encoded b = false.
Definition own_segment (s : str) : Prop := Forall own_byte s /\ ~ dot_segment s.
(** A host that can only be read as one. *)
Definition host_byte (b : byte) : Prop := is_slash b = false /\ starts_query b = false /\ 32 < b2n b.
Definition host_only (h : str) : Prop := h <> [] /\ Forall host_byte h.
