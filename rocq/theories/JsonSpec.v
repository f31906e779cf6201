(** JSON texts (RFC 8259) as a grammar: which text denotes which value. [d] is how deeply arrays and objects may be
    nested. Characters are bytes of the UTF-8 encoding; an escaped lone surrogate denotes no character. *)
From Verif Require Import Base Utf8 Json DomModel.

(** RFC 8259 2: space, horizontal tab, line feed, carriage return. *)
Definition blank (w : str) : Prop := Forall (fun b => In b [x20; x09; x0a; x0d]) w.

(** A hexadecimal digit and its value. *)
Definition hex_is (h : byte) (n : N) : Prop :=
  nth_error (bs "0123456789abcdef") (N.to_nat n) = Some h \/ nth_error (bs "0123456789ABCDEF") (N.to_nat n) = Some h.
Definition hex_unit (a b c d : byte) (n : N) : Prop :=
  exists na nb nc nd, hex_is a na /\ hex_is b nb /\ hex_is c nc /\ hex_is d nd /\ n = (na * 4096 + nb * 256 + nc * 16 + nd)%N.

(** RFC 8259 7: the character after a backslash, other than u, and what it stands for. *)
Definition escapes : list (byte * byte) :=
  [(x22, x22); (x5c, x5c); (x2f, x2f); (x62, x08); (x66, x0c); (x6e, x0a); (x72, x0d); (x74, x09)].

(** What stands between the quotes, and the string it denotes. *)
Inductive string_text : str -> str -> Prop :=
| st_end : string_text [] []
| st_char b raw s : (32 <= b2n b)%N -> b <> x22 -> b <> x5c -> string_text raw s -> string_text (b :: raw) (b :: s)
| st_escape e x raw s : In (e, x) escapes -> string_text raw s -> string_text (x5c :: e :: raw) (x :: s)
| st_unicode h1 h2 h3 h4 c raw s : hex_unit h1 h2 h3 h4 c -> (c < 55296 \/ 57344 <= c)%N -> string_text raw s ->
    string_text (x5c :: x75 :: h1 :: h2 :: h3 :: h4 :: raw) (utf8_encode c ++ s)
| st_pair h1 h2 h3 h4 g1 g2 g3 g4 hi lo raw s : hex_unit h1 h2 h3 h4 hi -> hex_unit g1 g2 g3 g4 lo ->
    (55296 <= hi < 56320)%N -> (56320 <= lo < 57344)%N -> string_text raw s ->
    string_text (x5c :: x75 :: h1 :: h2 :: h3 :: h4 :: x5c :: x75 :: g1 :: g2 :: g3 :: g4 :: raw)
      (utf8_encode (65536 + (hi - 55296) * 1024 + (lo - 56320)) ++ s).

(** RFC 8259 6. *)
Definition digits (d : str) : Prop := d <> [] /\ Forall (fun b => In b (bs "0123456789")) d.
Definition number_text (t : str) : Prop :=
  exists sign int frac exp, t = sign ++ int ++ frac ++ exp /\
    (sign = [] \/ sign = bs "-") /\
    digits int /\ (int = bs "0" \/ forall i, int <> x30 :: i) /\
    (frac = [] \/ exists d, frac = x2e :: d /\ digits d) /\
    (exp = [] \/ exists e s d, exp = e :: s ++ d /\ (e = x65 \/ e = x45) /\ (s = [] \/ s = bs "+" \/ s = bs "-") /\ digits d).

(** RFC 8259 3-5. *)
Inductive value_text : nat -> str -> json -> Prop :=
| vt_null d : value_text d (bs "null") JNull
| vt_true d : value_text d (bs "true") (JBool true)
| vt_false d : value_text d (bs "false") (JBool false)
| vt_number d t : number_text t -> value_text d t (JNum t)
| vt_string d raw s : string_text raw s -> value_text d (x22 :: raw ++ [x22]) (JStr s)
| vt_empty_array d w : blank w -> value_text (S d) (x5b :: w ++ [x5d]) (JArr [])
| vt_array d e l : elements_text d e l -> value_text (S d) (x5b :: e ++ [x5d]) (JArr l)
| vt_empty_object d w : blank w -> value_text (S d) (x7b :: w ++ [x7d]) (JObj [])
| vt_object d e l : members_text d e l -> value_text (S d) (x7b :: e ++ [x7d]) (JObj l)
with elements_text : nat -> str -> list json -> Prop :=
| et_last d w t w' v : blank w -> value_text d t v -> blank w' -> elements_text d (w ++ t ++ w') [v]
| et_more d w t w' v e l : blank w -> value_text d t v -> blank w' -> elements_text d e l ->
    elements_text d (w ++ t ++ w' ++ x2c :: e) (v :: l)
with members_text : nat -> str -> list (str * json) -> Prop :=
| mt_last d w raw k w1 w2 t w' v : blank w -> string_text raw k -> blank w1 -> blank w2 -> value_text d t v -> blank w' ->
    members_text d (w ++ (x22 :: raw ++ [x22]) ++ w1 ++ x3a :: w2 ++ t ++ w') [(k, v)]
| mt_more d w raw k w1 w2 t w' v e l : blank w -> string_text raw k -> blank w1 -> blank w2 -> value_text d t v -> blank w' ->
    members_text d e l ->
    members_text d (w ++ (x22 :: raw ++ [x22]) ++ w1 ++ x3a :: w2 ++ t ++ w' ++ x2c :: e) ((k, v) :: l).
Definition json_text (d : nat) (t : str) (v : json) : Prop :=
  exists w c w', t = w ++ c ++ w' /\ blank w /\ value_text d c v /\ blank w'.

(** ** What a message of the browser means (client/mod.rs:5-14: a listener's name and an optional payload with the
    string value; serde ignores other members and also takes the fields in order from an array). *)
Definition one_member (k : str) (v : json) (l : list (str * json)) : Prop :=
  exists a b, l = a ++ (k, v) :: b /\ ~ In k (map fst a) /\ ~ In k (map fst b).
Definition no_member (k : str) (l : list (str * json)) : Prop := ~ In k (map fst l).
Inductive payload_means : json -> option str -> Prop :=
| pm_null : payload_means JNull None
| pm_object l s : one_member (bs "value") (JStr s) l -> payload_means (JObj l) (Some s)
| pm_array s : payload_means (JArr [JStr s]) (Some s).
Inductive message_means : json -> str -> option str -> Prop :=
| mm_bare l name : one_member (bs "listener") (JStr name) l -> no_member (bs "payload") l -> message_means (JObj l) name None
| mm_payload l name p o : one_member (bs "listener") (JStr name) l -> one_member (bs "payload") p l -> payload_means p o ->
    message_means (JObj l) name o
| mm_array name p o : payload_means p o -> message_means (JArr [JStr name; p]) name o.
(** The text of a message says: the listener [name], with the value [o] if there is one. *)
Definition says (text name : str) (o : option str) : Prop := exists v, json_text 127 text v /\ message_means v name o.

(** ** How an instruction for the browser is written (client/index.js reads these; the type and what the payload holds) *)
Definition instruction_form (i : instr) : str * option str :=
  let pair a b := Some (a ++ bs "+" ++ b) in
  match i with
  | CreateTag name (Some parent) => (bs "createTag", pair name parent)
  | CreateTag name None => (bs "createTag", pair name [])
  | SetAttribute key value => (bs "setAttr", pair key value)
  | RemoveAttribute key => (bs "removeAttr", Some key)
  | SetTagName name => (bs "setTagName", Some name)
  | SetText value => (bs "setText", Some value)
  | RemoveText => (bs "removeText", None)
  | AttachListener name on => (bs "attachListener", pair name on)
  | RemoveListeners => (bs "removeListeners", None)
  | DeleteEl => (bs "deleteEl", None)
  | SetId value => (bs "setId", Some value)
  | InsertChild id => (bs "insertChild", Some id)
  | InsertBefore id => (bs "insertBefore", Some id)
  | InsertAfter id => (bs "insertAfter", Some id)
  | SetInnerHtml element html => (bs "setInnerHtml", pair element html)
  end.
Definition describes (o : op) (v : json) : Prop :=
  exists l, v = JObj l /\ one_member (bs "el") (JStr (op_id o)) l /\ one_member (bs "ty") (JStr (fst (instruction_form (op_instr o)))) l /\
    match snd (instruction_form (op_instr o)) with Some p => one_member (bs "payload") (JStr p) l | None => no_member (bs "payload") l end.
(** The text is a JSON array (nested no deeper than its objects) of the instructions, in order. *)
Definition lists_instructions (text : str) (os : list op) : Prop := exists l, json_text 2 text (JArr l) /\ Forall2 describes os l.
