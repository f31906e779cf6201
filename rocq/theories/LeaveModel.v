(** What the browser itself does when the user clicks or presses Enter: submitting forms and following links, and with
    it leaving the page. index.js (41-63) never calls [preventDefault], so the defaults always happen. *)
From Verif Require Import Base HMap Json ClientModel UserModel.

(** Tag and attributes of a node; texts have none. *)
Definition v_tag (n : vnode) : str := match n with VElem t _ _ _ _ => t | VText _ => [] end.
Definition v_attr (k : str) (n : vnode) : option str := match n with VElem _ a _ _ _ => get k a | VText _ => None end.
Definition v_has (k : str) (n : vnode) : bool := match v_attr k n with Some _ => true | None => false end.
Definition v_kids (n : vnode) : list vnode := match n with VElem _ _ _ _ kids => kids | VText _ => [] end.
(** The attribute [type], whose values are compared without regard to case (HTML Standard 4.10.5, 4.10.6). *)
Definition v_type (n : vnode) : str := match v_attr (bs "type") n with Some t => to_lower t | None => [] end.

(** All places of a document in tree order. *)
Fixpoint places_in (n : vnode) : list place :=
  match n with
  | VText _ => []
  | VElem _ _ _ _ kids =>
      (fix go (j : nat) (ns : list vnode) : list place :=
         match ns with
         | [] => []
         | c :: ns' => [j] :: map (cons j) (places_in c) ++ go (S j) ns'
         end) 0 kids
  end.
Definition all_places (doc : list vnode) : list place :=
  (fix go (j : nat) (ns : list vnode) : list place :=
     match ns with
     | [] => []
     | c :: ns' => [j] :: map (cons j) (places_in c) ++ go (S j) ns'
     end) 0 doc.
(** The first place of the document whose node passes the test. *)
Definition first_place (f : vnode -> bool) (doc : list vnode) : option place :=
  find (fun p => match node_at p doc with Some n => f n | None => false end) (all_places doc).
(** The places from [p] outwards, [p] first. *)
Fixpoint outwards (p : place) : list place :=
  match p with
  | [] => []
  | j :: p' => map (cons j) (outwards p') ++ [[j]]
  end.
(** The innermost place from [p] outwards whose node passes the test. *)
Definition nearest (f : vnode -> bool) (p : place) (doc : list vnode) : option place :=
  find (fun q => match node_at q doc with Some n => f n | None => false end) (outwards p).

(** HTML Standard 4.10.5.1 and 4.10.6: submit buttons (the default of [button]). *)
Definition submit_button (n : vnode) : bool :=
  (str_eqb (v_tag n) (bs "input") && (str_eqb (v_type n) (bs "submit") || str_eqb (v_type n) (bs "image")))
  || (str_eqb (v_tag n) (bs "button") && negb (str_eqb (v_type n) (bs "reset") || str_eqb (v_type n) (bs "button"))).
Definition is_form (n : vnode) : bool := str_eqb (v_tag n) (bs "form").
(** HTML Standard 4.10.17.3: the form an element belongs to, by its attribute [form] (the element with that id, if it is
    a form) or else the nearest one around it. *)
Definition form_owner (p : place) (doc : list vnode) : option place :=
  match node_at p doc with
  | None => None
  | Some n =>
      match v_attr (bs "form") n with
      | Some i => match first_place (v_has_id i) doc with
                  | Some q => match node_at q doc with Some m => if is_form m then Some q else None | None => None end
                  | None => None
                  end
      | None => nearest is_form p doc
      end
  end.
(** Links: every [a] or [area] with [href] is taken to lead away (in truth not those to a fragment of the same page, nor
    those that open a new window). *)
Definition is_link (n : vnode) : bool := (str_eqb (v_tag n) (bs "a") || str_eqb (v_tag n) (bs "area")) && v_has (bs "href") n.
(** Elements that do something when clicked (DOM Standard 2.9: the activation target is the innermost of them). *)
Definition reacts (n : vnode) : bool :=
  existsb (str_eqb (v_tag n)) [bs "a"; bs "area"; bs "button"; bs "input"; bs "label"; bs "summary"].
(** What a click can be passed on to by a label (HTML Standard 4.10.2, 4.10.4). *)
Definition labelable (n : vnode) : bool :=
  existsb (str_eqb (v_tag n)) [bs "button"; bs "input"; bs "meter"; bs "output"; bs "progress"; bs "select"; bs "textarea"]
  && negb (str_eqb (v_tag n) (bs "input") && str_eqb (v_type n) (bs "hidden")).
Definition labeled_control (q : place) (doc : list vnode) : option place :=
  match node_at q doc with
  | None => None
  | Some n =>
      match v_attr (bs "for") n with
      | Some i => match first_place (v_has_id i) doc with
                  | Some c => match node_at c doc with Some m => if labelable m then Some c else None | None => None end
                  | None => None
                  end
      | None => match first_place labelable (v_kids n) with Some r => Some (q ++ r) | None => None end
      end
  end.

(** Submitting the form at [f]: a submit event happens there, then the browser goes to the form's action (HTML Standard
    4.10.22.3). Simplified: fields that fail validation do not keep the form from being submitted. *)
Definition submit_form (f : place) (doc : list vnode) : list str * bool := (sends (bs "submit") f doc, true).
(** What the element at [q] does when clicked, labels apart. Elements with [disabled] do nothing. *)
Definition activate_at (q : place) (doc : list vnode) : list str * bool :=
  match node_at q doc with
  | None => ([], false)
  | Some n =>
      if is_link n then ([], true)
      else if submit_button n && negb (v_has (bs "disabled") n)
           then match form_owner q doc with Some f => submit_form f doc | None => ([], false) end
           else ([], false)
  end.
(** A click at [p]: the click event (index.js:41-63), then what the innermost reacting element does. A label clicks its
    control. The texts sent, and whether the page is left. *)
Definition click (p : place) (doc : list vnode) : list str * bool :=
  let '(more, leaves) :=
    match nearest reacts p doc with
    | None => ([], false)
    | Some q =>
        match node_at q doc with
        | Some n =>
            if str_eqb (v_tag n) (bs "label")
            then match labeled_control q doc with
                 | Some c => let '(t, l) := activate_at c doc in (sends (bs "click") c doc ++ t, l)
                 | None => ([], false)
                 end
            else activate_at q doc
        | None => ([], false)
        end
    end in
  (sends (bs "click") p doc ++ more, leaves).

(** HTML Standard 4.10.22.2: the fields in which Enter submits. *)
Definition text_field (n : vnode) : bool :=
  str_eqb (v_tag n) (bs "input")
  && negb (existsb (str_eqb (v_type n)) [bs "submit"; bs "image"; bs "reset"; bs "button"; bs "checkbox"; bs "radio"; bs "file"; bs "color"; bs "range"; bs "hidden"]).
Definition place_eqb (p q : place) : bool := if list_eq_dec Nat.eq_dec p q then true else false.
Definition belongs (f : place) (doc : list vnode) (q : place) : bool :=
  match form_owner q doc with Some g => place_eqb f g | None => false end.
(** Enter in the field at [p]: the form's first submit button is clicked, if it is not disabled; without such a button the
    form is submitted if it has no other text field. *)
Definition press_enter (p : place) (doc : list vnode) : list str * bool :=
  match node_at p doc with
  | None => ([], false)
  | Some n =>
      if text_field n then
        match form_owner p doc with
        | None => ([], false)
        | Some f =>
            match find (fun q => match node_at q doc with Some m => submit_button m && belongs f doc q | None => false end) (all_places doc) with
            | Some q => match node_at q doc with
                        | Some m => if v_has (bs "disabled") m then ([], false)
                                    else let '(t, l) := submit_form f doc in (sends (bs "click") q doc ++ t, l)
                        | None => ([], false)
                        end
            | None =>
                if Nat.leb (length (filter (fun q => match node_at q doc with Some m => text_field m && belongs f doc q | None => false end) (all_places doc))) 1
                then submit_form f doc else ([], false)
            end
        end
      else ([], false)
  end.

(** Everything the user can do: as [act] of UserModel.v, with the browser's own part. The document afterwards, the texts
    sent, and whether the page is left. *)
Inductive gesture := Writes (p : place) (t : str) | ClicksOn (p : place) | Enters (p : place).
Definition gesture_act (g : gesture) (doc : list vnode) : list vnode * list str * bool :=
  match g with
  | Writes p t => (act (Types p t) doc, false)
  | ClicksOn p => let '(t, l) := click p doc in (doc, t, l)
  | Enters p => let '(t, l) := press_enter p doc in (doc, t, l)
  end.
