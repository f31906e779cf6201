(** Model of the wire format of changesets and of the browser side, puck_liveview/client/index.js. *)
From Verif Require Import Base HMap Num Utf8 Json DomModel.

(* ------------------------------------------------------------------ *)
(** ** The wire: dom/element/diff/changeset/instruction_serializer.rs *)

Definition plus : byte := x2b.
Definition field (k : str) (v : str) : str * json := (k, JStr v).

(** instruction_serializer.rs:36-105, the "ty" field and the payload ([None]: no payload field). *)
Definition op_ty (i : instr) : str :=
  match i with
  | InsertChild _ => bs "insertChild"
  | InsertAfter _ => bs "insertAfter"
  | SetAttribute _ _ => bs "setAttr"
  | SetId _ => bs "setId"
  | SetText _ => bs "setText"
  | SetTagName _ => bs "setTagName"
  | CreateTag _ _ => bs "createTag"
  | RemoveText => bs "removeText"
  | RemoveListeners => bs "removeListeners"
  | AttachListener _ _ => bs "attachListener"
  | SetInnerHtml _ _ => bs "setInnerHtml"
  | InsertBefore _ => bs "insertBefore"
  | RemoveAttribute _ => bs "removeAttr"
  | DeleteEl => bs "deleteEl"
  end.
Definition op_payload (i : instr) : option str :=
  match i with
  | InsertChild n => Some n
  | InsertAfter n => Some n
  | SetAttribute k v => Some (k ++ plus :: v)
  | SetId v => Some v
  | SetText v => Some v
  | SetTagName n => Some n
  | CreateTag n p => Some (n ++ plus :: match p with Some p => p | None => [] end)
  | RemoveText => None
  | RemoveListeners => None
  | AttachListener n e => Some (n ++ plus :: e)
  | SetInnerHtml e h => Some (e ++ plus :: h)
  | InsertBefore n => Some n
  | RemoveAttribute k => Some k
  | DeleteEl => None
  end.
(** instruction_serializer.rs:28-108, OpSerializer. *)
Definition op_json (o : op) : json :=
  JObj (field (bs "el") (op_id o) :: field (bs "ty") (op_ty (op_instr o))
        :: match op_payload (op_instr o) with Some p => [field (bs "payload") p] | None => [] end).
(** instruction_serializer.rs:12-24, InstructionSerializer, printed by serde_json::to_string
    (component/mod.rs:133, 203). *)
Definition wire (os : list op) : str := print_json (JArr (map op_json os)).

(* ------------------------------------------------------------------ *)
(** ** The browser: client/index.js *)

(** A DOM node: a text node or an element with its tag name, attributes (among them "id"), event
    listeners in registration order (the event and the listener name captured by the closure of
    index.js:39-63) and child nodes. *)
Inductive node :=
| Text (s : str)
| Elem (tag : str) (attrs : hmap str) (listeners : list (str * str)) (kids : list node).

(** [data.el], [data.ty], [data.payload] of one parsed instruction. *)
Record jsop := JsOp { js_el : str; js_ty : str; js_payload : option str }.
(** A property of a parsed object; of repeated names the last one counts. *)
Fixpoint prop (k : str) (l : list (str * json)) : option json :=
  match l with
  | [] => None
  | (k', v) :: l' => match prop k l' with Some x => Some x | None => if str_eqb k k' then Some v else None end
  end.
Definition str_prop (k : str) (l : list (str * json)) : option str :=
  match prop k l with Some (JStr s) => Some s | _ => None end.
(** index.js:4-6 on the objects the server prints (other shapes are not considered: [None]). *)
Definition read_op (v : json) : option jsop :=
  match v with
  | JObj l => match str_prop (bs "el") l, str_prop (bs "ty") l with
              | Some e, Some t => Some (JsOp e t (str_prop (bs "payload") l))
              | _, _ => None
              end
  | _ => None
  end.
Fixpoint read_ops (l : list json) : option (list jsop) :=
  match l with
  | [] => Some []
  | v :: l' => match read_op v, read_ops l' with Some o, Some os => Some (o :: os) | _, _ => None end
  end.
(** index.js:4 [JSON.parse(msg.data)]; JavaScript has no nesting limit. *)
Definition read_message (text : str) : option (list jsop) :=
  match parse_json (length text) text with
  | Some (JArr l) => read_ops l
  | _ => None
  end.

(** [s.split("+")], and [split[0]], [split[1]]. *)
Definition part (n : nat) (s : str) : option str := nth_error (split_on plus s) n.

(** Tag and attribute names accepted by [createElement] and [setAttribute]: the XML Name production
    (for non-ASCII characters the model accepts every one). *)
Definition name_start (b : byte) : bool :=
  let n := b2n b in ((65 <=? n) && (n <=? 90) || (97 <=? n) && (n <=? 122) || (n =? 95) || (n =? 58) || (128 <=? n))%N.
Definition name_char (b : byte) : bool :=
  let n := b2n b in (name_start b || (48 <=? n) && (n <=? 57) || (n =? 45) || (n =? 46))%N.
Definition valid_name (s : str) : bool :=
  match s with [] => false | b :: r => name_start b && forallb name_char r end.

Definition attr_id : str := bs "id".
Definition node_id (n : node) : option str :=
  match n with Text _ => None | Elem _ a _ _ => get attr_id a end.
Definition has_id (i : str) (n : node) : bool :=
  match node_id n with Some j => str_eqb i j | None => false end.

(** [document.getElementById] followed by an action that replaces the element by the given nodes: the
    first element in document order with that id. Outer [None]: no such element (the action then throws
    on null); inner [None]: the action throws. *)
Fixpoint edit_node (i : str) (f : node -> option (list node)) (n : node) : option (option (list node)) :=
  if has_id i n then Some (f n)
  else match n with
       | Text _ => None
       | Elem t a l kids =>
           match (fix go (ns : list node) : option (option (list node)) :=
                    match ns with
                    | [] => None
                    | c :: ns' =>
                        match edit_node i f c with
                        | Some (Some r) => Some (Some (r ++ ns'))
                        | Some None => Some None
                        | None => match go ns' with
                                  | Some (Some r) => Some (Some (c :: r))
                                  | Some None => Some None
                                  | None => None
                                  end
                        end
                    end) kids with
           | Some (Some kids') => Some (Some [Elem t a l kids'])
           | Some None => Some None
           | None => None
           end
       end.
Fixpoint edit_nodes (i : str) (f : node -> option (list node)) (ns : list node) : option (option (list node)) :=
  match ns with
  | [] => None
  | c :: ns' =>
      match edit_node i f c with
      | Some (Some r) => Some (Some (r ++ ns'))
      | Some None => Some None
      | None => match edit_nodes i f ns' with
                | Some (Some r) => Some (Some (c :: r))
                | Some None => Some None
                | None => None
                end
      end
  end.
(** On the document (the child nodes of body); [None]: an exception. *)
Definition by_id (i : str) (f : node -> option (list node)) (doc : list node) : option (list node) :=
  match edit_nodes i f doc with Some r => r | None => None end.

(** [document.createElement(name)] with [el.id = i]. *)
Definition make_el (name i : str) : option node :=
  if valid_name name then Some (Elem (to_lower name) [(attr_id, i)] [] []) else None.
(** [el.textContent = s]. *)
Definition text_nodes (s : str) : list node := match s with [] => [] | _ => [Text s] end.
(** [el.cloneNode(true)]: no event listener is copied. *)
Fixpoint clone (n : node) : node :=
  match n with
  | Text s => Text s
  | Elem t a _ kids => Elem t a [] (map clone kids)
  end.

Section Browser.
(** What assigning innerHTML the serialisation of some nodes gives (index.js:28), from the old tag, the new tag and the
    nodes: what the HTML Standard says of it is in InnerHtml.v. *)
Context (reparse : str -> str -> list node -> list node).

(** index.js:6-76, one instruction. [None]: an exception. (A payload or a listener event the browser
    would read as undefined is [None] too; the server never prints such an instruction.) *)
Definition js_exec (o : jsop) (doc : list node) : option (list node) :=
  let i := js_el o in
  let is t := str_eqb (js_ty o) t in
  if is (bs "createTag") then                                                     (* 6-15 *)
    match js_payload o with
    | None => None
    | Some p =>
        match part 0 p with
        | None => None
        | Some name =>
            match make_el name i with
            | None => None
            | Some el =>
                match part 1 p with
                | None | Some [] => Some (doc ++ [el])
                | Some q => by_id q (fun n => match n with
                    | Elem t a l kids => Some [Elem t a l (kids ++ [el])]
                    | Text _ => None end) doc
                end
            end
        end
    end
  else if is (bs "setAttr") then                                                  (* 16-22 *)
    match js_payload o with
    | None => None
    | Some p => by_id i (fun n => match n, part 0 p with
        | Elem t a l kids, Some k =>
            if valid_name k
            then Some [Elem t (insert (to_lower k) (match part 1 p with Some v => v | None => bs "undefined" end) a) l kids]
            else None
        | _, _ => None end) doc
    end
  else if is (bs "removeAttr") then                                               (* 23-24 *)
    match js_payload o with
    | None => None
    | Some p => by_id i (fun n => match n with
        | Elem t a l kids => Some [Elem t (remove (to_lower p) a) l kids]
        | Text _ => None end) doc
    end
  else if is (bs "setTagName") then                                               (* 25-35 *)
    match js_payload o with
    | None => None
    | Some p => by_id i (fun n => match n with
        | Elem t a l kids => if valid_name p then Some [Elem (to_lower p) a [] (reparse t (to_lower p) kids)] else None
        | Text _ => None end) doc
    end
  else if is (bs "setText") then                                                  (* 36-38 *)
    match js_payload o with
    | None => None
    | Some p => by_id i (fun n => match n with
        | Elem t a l kids => Some [Elem t a l (text_nodes p)]
        | Text _ => None end) doc
    end
  else if is (bs "attachListener") then                                           (* 39-63 *)
    match js_payload o with
    | None => None
    | Some p => by_id i (fun n => match n, part 0 p, part 1 p with
        | Elem t a l kids, Some name, Some ev => Some [Elem t a (l ++ [(ev, name)]) kids]
        | _, _, _ => None end) doc
    end
  else if is (bs "removeListeners") then                                          (* 64-67 *)
    by_id i (fun n => Some [clone n]) doc
  else if is (bs "deleteEl") then                                                 (* 68-72 *)
    by_id i (fun n => Some []) doc
  else if is (bs "setId") then                                                    (* 73-75 *)
    match js_payload o with
    | None => None
    | Some p => by_id i (fun n => match n with
        | Elem t a l kids => Some [Elem t (insert attr_id p a) l kids]
        | Text _ => None end) doc
    end
  else Some doc.                                                                  (* no such branch *)
(** index.js:5 [data.map(...)]: the document afterwards, and whether every instruction was executed
    (an exception abandons the rest of the message). *)
Fixpoint js_run (os : list jsop) (doc : list node) : list node * bool :=
  match os with
  | [] => (doc, true)
  | o :: os' => match js_exec o doc with Some doc' => js_run os' doc' | None => (doc, false) end
  end.
(** index.js:3-78, one message. *)
Definition on_message (text : str) (doc : list node) : list node * bool :=
  match read_message text with
  | Some os => js_run os doc
  | None => (doc, false)
  end.
End Browser.

(** index.js:41-63, the closure attached for the event [ev] under the listener name [name]: what it sends
    when the event happens on an element whose value is [value] ([None]: nothing). *)
Definition js_event (ev name value : str) : option str :=
  if str_eqb ev (bs "click") then Some (print_json (JObj [field (bs "listener") name]))
  else if str_eqb ev (bs "submit") then Some (print_json (JObj [field (bs "listener") name]))
  else if str_eqb ev (bs "input") then
    Some (print_json (JObj [field (bs "listener") name; (bs "payload", JObj [field (bs "value") value])]))
  else None.
