(** How HTML is tokenized (WHATWG HTML, section 13.2.5), for input without character references, comments,
    doctypes and NUL; the states of script and title contents are not used. *)
From Verif Require Import Base HMap DomModel DomSpec.

Inductive token :=
| TStart (name : str) (attrs : list (str * str)) (self_closing : bool)
| TEnd (name : str)
| TChar (c : byte).

(** The tag being read: an end tag or not, its name, its attributes so far. *)
Record tag := Tag { t_end : bool; t_name : str; t_attrs : list (str * str) }.
Inductive tstate :=
| Data | TagOpen | EndTagOpen | TagName (t : tag)
| BeforeAttrName (t : tag) | AttrName (t : tag) (name : str) | AfterAttrName (t : tag) (name : str)
| BeforeValue (t : tag) (name : str) | ValueDouble (t : tag) (name v : str) | ValueSingle (t : tag) (name v : str)
| ValueUnquoted (t : tag) (name v : str) | AfterValue (t : tag) | SelfClosing (t : tag)
| Unsupported.

Definition is (c : byte) (s : str) : bool := match s with [b] => byte_eqb c b | _ => false end.
Definition space (c : byte) : bool := byte_eqb c x09 || byte_eqb c x0a || byte_eqb c x0c || byte_eqb c x20.
Definition letter (c : byte) : bool :=
  let n := b2n c in ((65 <=? n) && (n <=? 90) || (97 <=? n) && (n <=? 122))%N.
Definition lower1 (c : byte) : str := to_lower [c].
Definition emit (t : tag) (sc : bool) : list token :=
  if t_end t then [TEnd (t_name t)] else [TStart (t_name t) (t_attrs t) sc].
Definition with_attr (t : tag) (n v : str) : tag := Tag (t_end t) (t_name t) (t_attrs t ++ [(n, v)]).

Definition before_attr_name (t : tag) (c : byte) : tstate * list token :=
  if space c then (BeforeAttrName t, []) else if is c (bs "/") then (SelfClosing t, [])
  else if is c (bs ">") then (Data, emit t false) else (AttrName t (lower1 c), []).
Definition step (s : tstate) (c : byte) : tstate * list token :=
  match s with
  | Data => if is c (bs "<") then (TagOpen, []) else if is c (bs "&") then (Unsupported, []) else (Data, [TChar c])
  | TagOpen =>
      if is c (bs "/") then (EndTagOpen, []) else if letter c then (TagName (Tag false (lower1 c) []), [])
      else if is c (bs "!") || is c (bs "?") || is c (bs "&") then (Unsupported, [])
      else if is c (bs "<") then (TagOpen, [TChar c]) else (Data, map TChar (bs "<") ++ [TChar c])
  | EndTagOpen =>
      if letter c then (TagName (Tag true (lower1 c) []), []) else if is c (bs ">") then (Data, []) else (Unsupported, [])
  | TagName t =>
      if space c then (BeforeAttrName t, []) else if is c (bs "/") then (SelfClosing t, [])
      else if is c (bs ">") then (Data, emit t false) else (TagName (Tag (t_end t) (t_name t ++ lower1 c) (t_attrs t)), [])
  | BeforeAttrName t => before_attr_name t c
  | AttrName t n =>
      if space c then (AfterAttrName t n, []) else if is c (bs "/") then (SelfClosing (with_attr t n []), [])
      else if is c (bs ">") then (Data, emit (with_attr t n []) false) else if is c (bs "=") then (BeforeValue t n, [])
      else (AttrName t (n ++ lower1 c), [])
  | AfterAttrName t n =>
      if space c then (AfterAttrName t n, []) else if is c (bs "/") then (SelfClosing (with_attr t n []), [])
      else if is c (bs "=") then (BeforeValue t n, []) else if is c (bs ">") then (Data, emit (with_attr t n []) false)
      else (AttrName (with_attr t n []) (lower1 c), [])
  | BeforeValue t n =>
      if space c then (BeforeValue t n, []) else if is c (bs """") then (ValueDouble t n [], [])
      else if is c (bs "'") then (ValueSingle t n [], []) else if is c (bs ">") then (Data, emit (with_attr t n []) false)
      else if is c (bs "&") then (Unsupported, []) else (ValueUnquoted t n [c], [])
  | ValueDouble t n v =>
      if is c (bs """") then (AfterValue (with_attr t n v), []) else if is c (bs "&") then (Unsupported, []) else (ValueDouble t n (v ++ [c]), [])
  | ValueSingle t n v =>
      if is c (bs "'") then (AfterValue (with_attr t n v), []) else if is c (bs "&") then (Unsupported, []) else (ValueSingle t n (v ++ [c]), [])
  | ValueUnquoted t n v =>
      if space c then (BeforeAttrName (with_attr t n v), []) else if is c (bs "&") then (Unsupported, [])
      else if is c (bs ">") then (Data, emit (with_attr t n v) false) else (ValueUnquoted t n (v ++ [c]), [])
  | AfterValue t => before_attr_name t c
  | SelfClosing t => if is c (bs ">") then (Data, emit t true) else before_attr_name t c
  | Unsupported => (Unsupported, [])
  end.
Fixpoint tokens (st : tstate) (s : str) : tstate * list token :=
  match s with
  | [] => (st, [])
  | c :: s' => let '(st1, o1) := step st c in let '(st2, o2) := tokens st1 s' in (st2, o1 ++ o2)
  end.
(** The tokens of a whole text; [None]: it ends inside a tag, or leaves the supported part. *)
Definition tokenize (s : str) : option (list token) :=
  match tokens Data s with (Data, ts) => Some ts | _ => None end.

(** What a page should say: a start tag with the attributes, the text, the children, the end tag. *)
Fixpoint says_page (e : element) : list token :=
  match e with
  | Element _ n a _ cs t _ =>
      TStart n a false :: map TChar (match t with Some v => v | None => [] end) ++ flat_map says_page cs ++ [TEnd n]
  end.
(** Characters that mean themselves: in tag names, attribute keys, attribute values, text. *)
Definition tag_name (s : str) : Prop :=
  to_lower s = s /\ exists c r, s = c :: r /\ letter c = true /\ Forall (fun c => space c = false /\ is c (bs "/") = false /\ is c (bs ">") = false) r.
Definition attr_key (s : str) : Prop :=
  to_lower s = s /\ Forall (fun c => space c = false /\ is c (bs "/") = false /\ is c (bs ">") = false /\ is c (bs "=") = false) s.
Definition attr_value (s : str) : Prop := Forall (fun c => is c (bs """") = false /\ is c (bs "&") = false) s.
Definition plain_text (s : str) : Prop := Forall (fun c => is c (bs "<") = false /\ is c (bs "&") = false) s.
(** Pages all of whose strings are of that kind. *)
Definition plain : element -> Prop := every (fun e =>
  tag_name (el_name e) /\ Forall (fun kv => attr_key (fst kv) /\ attr_value (snd kv)) (el_attrs e) /\
  match el_text e with Some t => plain_text t | None => True end).
(** The page with every attribute's key put in quotes. *)
Fixpoint quoted (e : element) : element :=
  match e with
  | Element i n a l cs t k => Element i n (map (fun kv => ([x22] ++ fst kv ++ [x22], snd kv)) a) l (map quoted cs) t k
  end.
(** Text that is not read as markup: no "&", and no "<" in front of a letter, "/", "!" or "?". *)
Definition harmless (s : str) : Prop :=
  (forall a b, s <> a ++ bs "&" ++ b) /\
  forall a c b, s = a ++ bs "<" ++ [c] ++ b -> letter c = false /\ is c (bs "/") = false /\ is c (bs "!") = false /\ is c (bs "?") = false.
(** Pages with proper tag names; pages without attributes and with harmless text. *)
Definition named : element -> Prop := every (fun e => tag_name (el_name e)).
Definition bare : element -> Prop := every (fun e => el_attrs e = [] /\ match el_text e with Some t => harmless t | None => True end).
