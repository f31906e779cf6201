(** The user at the browser: what form fields show once something has been typed into them, and which listeners an
    event reaches. A refinement of the documents of ClientModel.v. *)
From Verif Require Import Base HMap Json ClientModel.

(** A DOM node as in ClientModel.v, with what was typed into it: [Some t] once the user has typed (HTML Standard, 4.10.5:
    an input element has a value and a dirty value flag; typing sets both). *)
Inductive vnode :=
| VText (s : str)
| VElem (tag : str) (attrs : hmap str) (typed : option str) (listeners : list (str * str)) (kids : list vnode).
(** The document without what was typed. *)
Fixpoint erase (n : vnode) : node :=
  match n with VText s => Text s | VElem t a _ l kids => Elem t a l (map erase kids) end.
(** Nodes nobody has typed into. *)
Fixpoint fresh (n : node) : vnode :=
  match n with Text s => VText s | Elem t a l kids => VElem t a None l (map fresh kids) end.

(** What a text field shows, and [e.target.value] (index.js:58): the typed text, or else the attribute value, without
    line breaks (HTML Standard: while the dirty value flag is false, setting the attribute value sets the value; the value
    sanitization of text fields strips newlines). *)
Definition one_line (s : str) : str := filter (fun b => negb (byte_eqb b x0a || byte_eqb b x0d)) s.
Definition field_value (n : vnode) : str :=
  match n with
  | VElem _ _ (Some t) _ _ => t
  | VElem _ a None _ _ => match get (bs "value") a with Some v => one_line v | None => [] end
  | VText _ => []
  end.

Definition v_has_id (i : str) (n : vnode) : bool :=
  match n with VText _ => false | VElem _ a _ _ _ => match get attr_id a with Some j => str_eqb i j | None => false end end.
(** [getElementById] and an action on the element, as [edit_node], [edit_nodes], [by_id] of ClientModel.v. *)
Fixpoint v_edit (i : str) (f : vnode -> option (list vnode)) (n : vnode) : option (option (list vnode)) :=
  if v_has_id i n then Some (f n)
  else match n with
       | VText _ => None
       | VElem t a ty l kids =>
           match (fix go (ns : list vnode) : option (option (list vnode)) :=
                    match ns with
                    | [] => None
                    | c :: ns' =>
                        match v_edit i f c with
                        | Some (Some r) => Some (Some (r ++ ns'))
                        | Some None => Some None
                        | None => match go ns' with
                                  | Some (Some r) => Some (Some (c :: r))
                                  | Some None => Some None
                                  | None => None
                                  end
                        end
                    end) kids with
           | Some (Some kids') => Some (Some [VElem t a ty l kids'])
           | Some None => Some None
           | None => None
           end
       end.
Fixpoint v_edits (i : str) (f : vnode -> option (list vnode)) (ns : list vnode) : option (option (list vnode)) :=
  match ns with
  | [] => None
  | c :: ns' =>
      match v_edit i f c with
      | Some (Some r) => Some (Some (r ++ ns'))
      | Some None => Some None
      | None => match v_edits i f ns' with
                | Some (Some r) => Some (Some (c :: r))
                | Some None => Some None
                | None => None
                end
      end
  end.
Definition v_by_id (i : str) (f : vnode -> option (list vnode)) (doc : list vnode) : option (list vnode) :=
  match v_edits i f doc with Some r => r | None => None end.
(** [cloneNode(true)] (index.js:66): the listeners are not copied, what was typed is (HTML Standard: the cloning steps of
    input elements propagate the value and the dirty value flag). *)
Fixpoint v_clone (n : vnode) : vnode :=
  match n with VText s => VText s | VElem t a ty _ kids => VElem t a ty [] (map v_clone kids) end.

Section Browser.
Context (reparse : str -> str -> list node -> list node).
(** index.js:6-76, as [js_exec]. New elements ([createElement], innerHTML: 8, 27-28) have nothing typed into them;
    setAttribute and removeAttribute (16-24) leave it alone. *)
Definition v_exec (o : jsop) (doc : list vnode) : option (list vnode) :=
  let i := js_el o in
  let is t := str_eqb (js_ty o) t in
  if is (bs "createTag") then
    match js_payload o with
    | None => None
    | Some p =>
        match part 0 p with
        | None => None
        | Some name =>
            match make_el name i with
            | None => None
            | Some el =>
                match part 1 p with
                | None | Some [] => Some (doc ++ [fresh el])
                | Some q => v_by_id q (fun n => match n with
                    | VElem t a ty l kids => Some [VElem t a ty l (kids ++ [fresh el])]
                    | VText _ => None end) doc
                end
            end
        end
    end
  else if is (bs "setAttr") then
    match js_payload o with
    | None => None
    | Some p => v_by_id i (fun n => match n, part 0 p with
        | VElem t a ty l kids, Some k =>
            if valid_name k
            then Some [VElem t (insert (to_lower k) (match part 1 p with Some v => v | None => bs "undefined" end) a) ty l kids]
            else None
        | _, _ => None end) doc
    end
  else if is (bs "removeAttr") then
    match js_payload o with
    | None => None
    | Some p => v_by_id i (fun n => match n with
        | VElem t a ty l kids => Some [VElem t (remove (to_lower p) a) ty l kids]
        | VText _ => None end) doc
    end
  else if is (bs "setTagName") then
    match js_payload o with
    | None => None
    | Some p => v_by_id i (fun n => match n with
        | VElem t a ty l kids => if valid_name p then Some [VElem (to_lower p) a None [] (map fresh (reparse t (to_lower p) (map erase kids)))] else None
        | VText _ => None end) doc
    end
  else if is (bs "setText") then
    match js_payload o with
    | None => None
    | Some p => v_by_id i (fun n => match n with
        | VElem t a ty l kids => Some [VElem t a ty l (map fresh (text_nodes p))]
        | VText _ => None end) doc
    end
  else if is (bs "attachListener") then
    match js_payload o with
    | None => None
    | Some p => v_by_id i (fun n => match n, part 0 p, part 1 p with
        | VElem t a ty l kids, Some name, Some ev => Some [VElem t a ty (l ++ [(ev, name)]) kids]
        | _, _, _ => None end) doc
    end
  else if is (bs "removeListeners") then
    v_by_id i (fun n => Some [v_clone n]) doc
  else if is (bs "deleteEl") then
    v_by_id i (fun n => Some []) doc
  else if is (bs "setId") then
    match js_payload o with
    | None => None
    | Some p => v_by_id i (fun n => match n with
        | VElem t a ty l kids => Some [VElem t (insert attr_id p a) ty l kids]
        | VText _ => None end) doc
    end
  else Some doc.
(** index.js:5 and 3-78, as [js_run] and [on_message]. *)
Fixpoint v_run (os : list jsop) (doc : list vnode) : list vnode * bool :=
  match os with
  | [] => (doc, true)
  | o :: os' => match v_exec o doc with Some doc' => v_run os' doc' | None => (doc, false) end
  end.
Definition v_message (text : str) (doc : list vnode) : list vnode * bool :=
  match read_message text with
  | Some os => v_run os doc
  | None => (doc, false)
  end.
(** Several messages, as [browse] of ComponentSpec.v; the flag: no exception in any of them. *)
Fixpoint v_browse (texts : list str) (doc : list vnode) : list vnode * bool :=
  match texts with
  | [] => (doc, true)
  | t :: ts => let '(doc1, ok1) := v_message t doc in
               let '(doc2, ok2) := v_browse ts doc1 in (doc2, ok1 && ok2)
  end.
End Browser.

(** ** Events *)
(** A place in a document: the numbers of the child nodes on the way from the body. *)
Definition place := list nat.
Fixpoint node_at (p : place) (ns : list vnode) : option vnode :=
  match p with
  | [] => None
  | [j] => nth_error ns j
  | j :: p' => match nth_error ns j with Some (VElem _ _ _ _ kids) => node_at p' kids | _ => None end
  end.
(** The nodes an event at that place goes through, the target first (click, input and submit events bubble, UI Events
    and HTML Standard). *)
Fixpoint on_the_way (p : place) (ns : list vnode) : list vnode :=
  match p with
  | [] => []
  | j :: p' => match nth_error ns j with
               | Some n => on_the_way p' (match n with VElem _ _ _ _ kids => kids | VText _ => [] end) ++ [n]
               | None => []
               end
  end.
Definition v_listeners (n : vnode) : list (str * str) := match n with VElem _ _ _ l _ => l | VText _ => [] end.
(** index.js:41-63: what is sent over the socket when the event [ev] happens at [p]: every listener for it on the way, in
    the order of the bubbling and, on one element, of the registration. index.js never stops the propagation. *)
Definition sends (ev : str) (p : place) (doc : list vnode) : list str :=
  match node_at p doc with
  | None => []
  | Some target =>
      flat_map (fun n => flat_map (fun l => if str_eqb (fst l) ev
                                            then match js_event (fst l) (snd l) (field_value target) with Some t => [t] | None => [] end
                                            else []) (v_listeners n))
               (on_the_way p doc)
  end.
Fixpoint update_nth (j : nat) (f : vnode -> vnode) (ns : list vnode) : list vnode :=
  match ns, j with
  | [], _ => []
  | n :: ns', 0 => f n :: ns'
  | n :: ns', S j' => n :: update_nth j' f ns'
  end.
(** The user types: the element at [p] holds [t] from then on. *)
Fixpoint type_at (t : str) (p : place) (ns : list vnode) : list vnode :=
  match p with
  | [] => ns
  | j :: p' => update_nth j (fun n => match n with
      | VText s => VText s
      | VElem tag a ty l kids => match p' with [] => VElem tag a (Some t) l kids | _ => VElem tag a ty l (type_at t p' kids) end
      end) ns
  end.
(** What a user does: type [t] into the field at [p] (the field then holds [t], and an input event happens there), or
    click on the element at [p]. What the browser itself does on a click (submitting a form and leaving the page, for
    instance) is not modelled. *)
Inductive user_action := Types (p : place) (t : str) | Clicks (p : place).
Definition act (u : user_action) (doc : list vnode) : list vnode * list str :=
  match u with
  | Types p t => let doc' := type_at t p doc in (doc', sends (bs "input") p doc')
  | Clicks p => (doc, sends (bs "click") p doc)
  end.
