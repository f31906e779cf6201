(** Vocabulary for the statements about the wire and the browser. *)
From Verif Require Import Base HMap Num Json DomModel DomSpec ClientModel InnerHtml.

(** ** The wire *)
Definition plus_free (s : str) : Prop := ~ In plus s.

(** The arguments an instruction is meant to have. *)
Definition arguments (i : instr) : list str :=
  match i with
  | InsertChild n | InsertAfter n | InsertBefore n => [n]
  | SetAttribute k v => [k; v]
  | RemoveAttribute k => [k]
  | SetId v | SetText v => [v]
  | SetTagName n => [n]
  | CreateTag n p => [n; match p with Some p => p | None => [] end]
  | AttachListener n e => [n; e]
  | SetInnerHtml e h => [e; h]
  | RemoveText | RemoveListeners | DeleteEl => []
  end.
(** The word that says which instruction it is (the words index.js compares with; those it does not know are in the same style). *)
Definition instruction_word (i : instr) : str :=
  match i with
  | CreateTag _ _ => bs "createTag" | DeleteEl => bs "deleteEl" | SetTagName _ => bs "setTagName"
  | SetText _ => bs "setText" | RemoveText => bs "removeText" | SetInnerHtml _ _ => bs "setInnerHtml"
  | SetAttribute _ _ => bs "setAttr" | RemoveAttribute _ => bs "removeAttr" | SetId _ => bs "setId"
  | AttachListener _ _ => bs "attachListener" | RemoveListeners => bs "removeListeners"
  | InsertChild _ => bs "insertChild" | InsertAfter _ => bs "insertAfter" | InsertBefore _ => bs "insertBefore"
  end.
(** The arguments the browser works with: for createTag, setAttr, attachListener (and setInnerHtml, for
    which it has no branch) the first two pieces of the payload, otherwise the payload. *)
Definition received (o : jsop) : list str :=
  match js_payload o with
  | None => []
  | Some p =>
      if existsb (str_eqb (js_ty o)) [bs "createTag"; bs "setAttr"; bs "attachListener"; bs "setInnerHtml"]
      then match part 0 p, part 1 p with Some x, Some y => [x; y] | Some x, None => [x] | _, _ => [] end
      else [p]
  end.
(** The parts that are glued together with "+" do not contain it. *)
Definition wire_safe (i : instr) : Prop :=
  match i with
  | SetAttribute k v => plus_free k /\ plus_free v
  | CreateTag n p => plus_free n /\ match p with Some p => plus_free p | None => True end
  | AttachListener n e => plus_free n /\ plus_free e
  | SetInnerHtml e h => plus_free e /\ plus_free h
  | _ => True
  end.

(** ** The page in the browser *)
Definition text_of (t : option str) : str := match t with Some v => v | None => [] end.

(** A DOM node shows an element: tag, id, attributes, listeners, the text in front of the children. *)
Inductive shows : node -> element -> Prop :=
| Shows i n a l cs t k m kids :
    get attr_id m = Some (dec i) -> (forall q, q <> attr_id -> get q m = get q a) ->
    Forall2 shows kids cs ->
    shows (Elem n m (map (fun x => (l_event x, l_name x)) l) (text_nodes (text_of t) ++ kids)) (Element i n a l cs t k).

(** Names the DOM accepts and does not change, attribute values and listener names without "+", no
    attribute called id. *)
Definition clean_name (s : str) : Prop := valid_name s = true /\ to_lower s = s.
Definition clean : element -> Prop := every (fun e =>
  clean_name (el_name e) /\
  Forall (fun kv => clean_name (fst kv) /\ fst kv <> attr_id /\ plus_free (snd kv)) (el_attrs e) /\
  Forall (fun l => plus_free (l_name l) /\ plus_free (l_event l)) (el_listeners e)).

(** The part of a text before the first "+". *)
Fixpoint cut (s : str) : str :=
  match s with
  | [] => []
  | b :: s' => if byte_eqb b plus then [] else b :: cut s'
  end.
(** The same as [shows], except that attribute values (and events) appear only up to the first "+". *)
Inductive displays : node -> element -> Prop :=
| Displays i n a l cs t k m kids :
    get attr_id m = Some (dec i) -> (forall q, q <> attr_id -> get q m = option_map cut (get q a)) ->
    Forall2 displays kids cs ->
    displays (Elem n m (map (fun x => (cut (l_event x), l_name x)) l) (text_nodes (text_of t) ++ kids)) (Element i n a l cs t k).
(** As [clean], but values (and events) may contain "+". *)
Definition neat : element -> Prop := every (fun e =>
  clean_name (el_name e) /\
  Forall (fun kv => clean_name (fst kv) /\ fst kv <> attr_id) (el_attrs e) /\
  Forall (fun l => plus_free (l_name l)) (el_listeners e)).

(** No listeners on the element or below it. *)
Definition quiet : element -> Prop := every (fun e => el_listeners e = []).

(** An element that may stand where the elements [st] are open (InnerHtml.v): the HTML parser neither closes nor moves
    anything, and gives back every character. *)
Fixpoint nestable (f : bool) (st : list str) (e : element) : Prop :=
  match e with
  | Element _ n a _ cs t _ =>
      opens f st n = true /\ Forall (fun kv => plain_chars (snd kv)) a /\ plain_chars (text_of t) /\
      (among void_tags n = true -> text_of t = [] /\ cs = []) /\
      (fix all (es : list element) : Prop := match es with [] => True | c :: r => nestable f (n :: st) c /\ all r end) cs
  end.
(** The content of a node survives being written as markup and parsed inside the new tag. *)
Definition survives (old new : str) (t : option str) (cs : list element) : Prop :=
  kind_of old <> None /\ among void_tags old = false /\ kind_of new <> None /\ plain_chars (text_of t) /\
  Forall (nestable (str_eqb new (bs "form")) []) cs.

(** What the browser can do to a node that is matched up with its new version:
    - rename it only if it has no listeners or gets new ones, and is empty, or its content has no listeners and survives;
    - change its text only while it has no children, remove it not at all;
    - change its listeners only when nothing below it has any. *)
Definition browser_pair (a b : element) : Prop :=
  (el_name a = el_name b \/
     (el_name b <> bs "html" /\ (el_listeners a = [] \/ el_listeners a <> el_listeners b) /\
      ((el_children a = [] /\ (text_of (el_text a) = [] \/ (exists v, el_text b = Some v /\ el_text a <> Some v))) \/
       (Forall quiet (el_children a) /\ survives (el_name a) (el_name b) (el_text a) (el_children a))))) /\
  (el_text a = el_text b \/ (exists v, el_text b = Some v /\ el_children a = []) \/ (el_text b = None /\ text_of (el_text a) = [])) /\
  (el_listeners a = el_listeners b \/ Forall quiet (el_children a)).

(** No "+" in names, attributes and listeners of a tree. *)
Definition plus_free_tree : element -> Prop := every (fun e =>
  plus_free (el_name e) /\ Forall (fun kv => plus_free (fst kv) /\ plus_free (snd kv)) (el_attrs e) /\
  Forall (fun l => plus_free (l_name l) /\ plus_free (l_event l)) (el_listeners e)).
