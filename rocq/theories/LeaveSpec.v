(** What a click or the Enter key sets off in a browser, by the HTML and DOM Standards: which events happen where, and whether the page
    is left. Specification only; LeaveModel.v computes the same. *)
From Verif Require Import Base HMap UserModel.

Definition tag_is (t : str) (n : vnode) : Prop := exists a ty l kids, n = VElem t a ty l kids.
Definition has_attr (k v : str) (n : vnode) : Prop := exists t a ty l kids, n = VElem t a ty l kids /\ get k a = Some v.
Definition lacks_attr (k : str) (n : vnode) : Prop := forall v, ~ has_attr k v n.
(** The attribute [type], compared without regard to case. *)
Definition typed_as (t : str) (n : vnode) : Prop := exists v, has_attr (bs "type") v n /\ to_lower v = t.

(** ** Places *)
Definition at_place (p : place) (doc : list vnode) (P : vnode -> Prop) : Prop := exists n, node_at p doc = Some n /\ P n.
(** Tree order (DOM Standard 1.1): ancestors before descendants, earlier children before later ones. *)
Inductive before : place -> place -> Prop :=
| before_below j r : before [] (j :: r)
| before_sibling i j p q : i < j -> before (i :: p) (j :: q)
| before_inside i p q : before p q -> before (i :: p) (i :: q).
Definition first_in (P : place -> Prop) (q : place) : Prop := P q /\ forall q', P q' -> q' <> q -> before q q'.
(** [q] is [p] or around it. *)
Definition around (p q : place) : Prop := exists r, p = q ++ r.
Definition innermost (P : vnode -> Prop) (doc : list vnode) (p q : place) : Prop :=
  around p q /\ at_place q doc P /\ forall q', around p q' -> at_place q' doc P -> around q q'.
Definition by_id (i : str) (doc : list vnode) (q : place) : Prop := first_in (fun q => at_place q doc (has_attr (bs "id") i)) q.

(** ** Elements *)
Definition link (n : vnode) : Prop := (tag_is (bs "a") n \/ tag_is (bs "area") n) /\ exists v, has_attr (bs "href") v n.
Definition submits (n : vnode) : Prop :=
  tag_is (bs "input") n /\ (typed_as (bs "submit") n \/ typed_as (bs "image") n) \/
  tag_is (bs "button") n /\ ~ typed_as (bs "reset") n /\ ~ typed_as (bs "button") n.
Definition enabled (n : vnode) : Prop := lacks_attr (bs "disabled") n.
Definition interactive (n : vnode) : Prop := exists t, In t [bs "a"; bs "area"; bs "button"; bs "input"; bs "label"; bs "summary"] /\ tag_is t n.
Definition can_be_labeled (n : vnode) : Prop :=
  (exists t, In t [bs "button"; bs "input"; bs "meter"; bs "output"; bs "progress"; bs "select"; bs "textarea"] /\ tag_is t n) /\
  ~ (tag_is (bs "input") n /\ typed_as (bs "hidden") n).
Definition line_field (n : vnode) : Prop :=
  tag_is (bs "input") n /\
  forall t, In t [bs "submit"; bs "image"; bs "reset"; bs "button"; bs "checkbox"; bs "radio"; bs "file"; bs "color"; bs "range"; bs "hidden"] -> ~ typed_as t n.
(** The form an element belongs to (HTML Standard 4.10.17.3). *)
Inductive owner (doc : list vnode) (p : place) : place -> Prop :=
| owner_named n i f : node_at p doc = Some n -> has_attr (bs "form") i n -> by_id i doc f -> at_place f doc (tag_is (bs "form")) -> owner doc p f
| owner_around n f : node_at p doc = Some n -> lacks_attr (bs "form") n -> innermost (tag_is (bs "form")) doc p f -> owner doc p f.
(** The control of a label (HTML Standard 4.10.4). *)
Inductive control (doc : list vnode) (q : place) : place -> Prop :=
| control_named n i c : node_at q doc = Some n -> has_attr (bs "for") i n -> by_id i doc c -> at_place c doc can_be_labeled -> control doc q c
| control_inside n c : node_at q doc = Some n -> lacks_attr (bs "for") n ->
    first_in (fun c => c <> q /\ around c q /\ at_place c doc can_be_labeled) c -> control doc q c.

(** ** What happens: the events, in order, and whether the page is left *)
Definition event := (str * place)%type.
Inductive activation (doc : list vnode) (q : place) : list event -> bool -> Prop :=
| follows_link : at_place q doc link -> activation doc q [] true
| submits_form f : at_place q doc (fun n => ~ link n /\ submits n /\ enabled n) -> owner doc q f -> activation doc q [(bs "submit", f)] true
| does_nothing : ~ at_place q doc link -> (forall f, at_place q doc (fun n => submits n /\ enabled n) -> ~ owner doc q f) -> activation doc q [] false.
Inductive clicked (doc : list vnode) (p : place) : list event -> bool -> Prop :=
| click_only : (forall q, ~ innermost interactive doc p q) -> clicked doc p [(bs "click", p)] false
| click_reacts q es b : innermost interactive doc p q -> at_place q doc (fun n => ~ tag_is (bs "label") n) -> activation doc q es b ->
    clicked doc p ((bs "click", p) :: es) b
| click_label q c es b : innermost interactive doc p q -> at_place q doc (tag_is (bs "label")) -> control doc q c -> activation doc c es b ->
    clicked doc p ((bs "click", p) :: (bs "click", c) :: es) b
| click_bare_label q : innermost interactive doc p q -> at_place q doc (tag_is (bs "label")) -> (forall c, ~ control doc q c) ->
    clicked doc p [(bs "click", p)] false.
(** Enter (HTML Standard 4.10.22.2, implicit submission). *)
Definition default_button (doc : list vnode) (f q : place) : Prop := first_in (fun q => at_place q doc submits /\ owner doc q f) q.
Definition only_field (doc : list vnode) (f p : place) : Prop := forall q, at_place q doc line_field -> owner doc q f -> q = p.
Inductive entered (doc : list vnode) (p : place) : list event -> bool -> Prop :=
| enter_button f q : at_place p doc line_field -> owner doc p f -> default_button doc f q -> at_place q doc enabled ->
    entered doc p [(bs "click", q); (bs "submit", f)] true
| enter_alone f : at_place p doc line_field -> owner doc p f -> (forall q, ~ default_button doc f q) -> only_field doc f p ->
    entered doc p [(bs "submit", f)] true
| enter_nothing : (forall f, at_place p doc line_field -> owner doc p f ->
    (exists q, default_button doc f q /\ ~ at_place q doc enabled) \/ ((forall q, ~ default_button doc f q) /\ ~ only_field doc f p)) ->
    entered doc p [] false.
