(** Vocabulary for the statements about the virtual DOM. *)
From Verif Require Import Base HMap Num DomModel.

(** All ids of a tree, in document order. *)
Fixpoint ids (e : element) : list N :=
  match e with Element i _ _ _ cs _ _ => i :: flat_map ids cs end.
Definition ids_of (l : list element) : list N := flat_map ids l.

(** Two trees look the same: ids, names, listeners, text, children in order, and the same attributes
    (as maps). Keys are only hints for the diffing algorithm and are not part of the page. *)
Inductive view : element -> element -> Prop :=
| View i n a1 a2 l cs1 cs2 t k1 k2 :
    hm_equiv a1 a2 -> Forall2 view cs1 cs2 ->
    view (Element i n a1 l cs1 t k1) (Element i n a2 l cs2 t k2).

(** Every node of a tree satisfies [P]. *)
Inductive every (P : element -> Prop) : element -> Prop :=
| Every e : P e -> Forall (every P) (el_children e) -> every P e.

(** What a Rust [Element] always satisfies: ids are machine words, attribute maps have one entry per
    key. *)
Definition proper (max : N) : element -> Prop := every (fun e => (el_id e <= max)%N /\ hm_wf (el_attrs e)).
(** No keys anywhere (what [into_element] produces). *)
Definition unkeyed : element -> Prop := every (fun e => el_key e = None).

Definition avoids (l : list N) (root : N) (done : list element) : Prop :=
  forall i, In i l -> i <> root /\ ~ In i (ids_of done).

(** The ids of the nodes of [b] that have no counterpart in [a] (for keyed children: all of them). *)
Fixpoint created (b a : element) {struct b} : list N :=
  match b with
  | Element _ _ _ _ bc _ _ =>
      if all_keyed a && forallb is_keyed bc then flat_map ids bc
      else (fix pairs (ds cs : list element) : list N :=
              match ds, cs with
              | d :: ds', c :: cs' => created d c ++ pairs ds' cs'
              | _, [] => flat_map ids ds
              | [], _ => []
              end) bc (el_children a)
  end.

(** [kids_safe R root done cs ds]: the children [cs] of a node with id [root] can be edited in place into
    [ds], the children before them being [done] by now: the ids used while editing a pair (those of the
    old child, and of the nodes created in it) occur neither as the parent's id nor among the siblings
    already edited; added children bring distinct new ids. *)
Inductive kids_safe (R : element -> element -> Prop) (root : N) : list element -> list element -> list element -> Prop :=
| ks_nil done : kids_safe R root done [] []
| ks_extra done c cs : kids_safe R root done (c :: cs) []
| ks_pair done c cs d ds : R c d -> avoids (ids c ++ created d c) root done ->
    kids_safe R root (done ++ [d]) cs ds -> kids_safe R root done (c :: cs) (d :: ds)
| ks_new done d ds : NoDup (ids d) -> avoids (ids d) root done ->
    kids_safe R root (done ++ [d]) [] ds -> kids_safe R root done [] (d :: ds).

(** The same for keyed children: the new children are some of the old ones, in the old order. *)
Inductive keyed_safe (R : element -> element -> Prop) (root : N) : list element -> list element -> list element -> Prop :=
| kd_nil done : keyed_safe R root done [] []
| kd_pair done c cs d ds : el_key c = el_key d -> R c d -> avoids (ids c ++ created d c) root done ->
    keyed_safe R root (done ++ [d]) cs ds -> keyed_safe R root done (c :: cs) (d :: ds)
| kd_drop done c cs ds : avoids [el_id c] root done -> ~ In (el_key c) (map el_key ds) ->
    keyed_safe R root (done ++ [c]) cs ds -> keyed_safe R root done (c :: cs) ds.

(** The edit from [a] to [b] is id-safe: at every pair of nodes that are matched up, the node keeps its
    id, or at least its name and listeners; ids do not collide while the children are edited; and
    surplus old children (deleted first) are not hidden behind a kept child with the same id. Moreover
    [P] holds of every pair of nodes matched up. *)
Inductive safe_with (P : element -> element -> Prop) : element -> element -> Prop :=
| safe_plain a b : P a b ->
    (el_id a = el_id b \/ (el_name a = el_name b /\ el_listeners a = el_listeners b)) ->
    (all_keyed a && all_keyed b = true -> el_children a = [] /\ el_children b = []) ->
    Forall (fun c => avoids [el_id c] (el_id a) (firstn (length (el_children b)) (el_children a)))
           (skipn (length (el_children b)) (el_children a)) ->
    kids_safe (safe_with P) (el_id a) [] (el_children a) (el_children b) -> safe_with P a b
| safe_keyed a b : P a b ->
    (el_id a = el_id b \/ (el_name a = el_name b /\ el_listeners a = el_listeners b)) ->
    all_keyed a = true -> all_keyed b = true ->
    NoDup (map el_key (el_children a)) -> NoDup (map el_key (el_children b)) ->
    keyed_safe (safe_with P) (el_id a) [] (el_children a) (el_children b) -> safe_with P a b.
Definition safe : element -> element -> Prop := safe_with (fun _ _ => True).

(** Pre-order consecutive numbering from [i] (ids as handed out by one fresh generator); the second
    index is the next free id. *)
Inductive numbered : N -> element -> N -> Prop :=
| Numbered i n a l cs t k j : numbered_list (i + 1) cs j -> numbered i (Element i n a l cs t k) j
with numbered_list : N -> list element -> N -> Prop :=
| NumNil i : numbered_list i [] i
| NumCons i c cs j m : numbered i c j -> numbered_list j cs m -> numbered_list i (c :: cs) m.

(** The new tree [b] fits the old tree [a]: nodes matched up by position keep their id, or get a smaller
    one (something before them was deleted) while they keep name and listeners and gain no node. So
    pages may change freely in place, grow at the end, and shrink anywhere. *)
Inductive fits : element -> element -> Prop :=
| FitsSame a b : el_id a = el_id b -> fits_list (el_children a) (el_children b) -> fits a b
| FitsBack a b : (el_id b < el_id a)%N -> el_name a = el_name b -> el_listeners a = el_listeners b ->
    created b a = [] -> fits_list (el_children a) (el_children b) -> fits a b
with fits_list : list element -> list element -> Prop :=
| FitsAdd l : fits_list [] l
| FitsDrop l : fits_list l []
| FitsCons c d cs ds : fits c d -> fits_list cs ds -> fits_list (c :: cs) (d :: ds).

(** [P] holds of every pair of nodes in the same position. *)
Inductive matched (P : element -> element -> Prop) : element -> element -> Prop :=
| Matched a b : P a b -> matched_list P (el_children a) (el_children b) -> matched P a b
with matched_list (P : element -> element -> Prop) : list element -> list element -> Prop :=
| MatNilL l : matched_list P [] l
| MatNilR l : matched_list P l []
| MatCons c d cs ds : matched P c d -> matched_list P cs ds -> matched_list P (c :: cs) (d :: ds).

(** Two nodes in the same position have the same id. *)
Definition same_id (x y : element) : Prop := el_id x = el_id y.
(** The page only grows: no node loses a child. *)
Definition grows : element -> element -> Prop := matched (fun x y => (length (el_children x) <= length (el_children y))%nat).
(** An element is pushed back: walking the two pages side by side in document order, the nodes that are in both keep
    their ids up to one that gets a larger id, which is the node in the same position of the new page. *)
Inductive pushed : element -> element -> Prop :=
| Pushed a b C c C2 D d D2 : el_id a = el_id b -> el_children a = C ++ c :: C2 -> el_children b = D ++ d :: D2 -> Forall2 (matched same_id) C D ->
    pushed_one c d -> pushed a b
with pushed_one : element -> element -> Prop :=
| PushedHere c d : (el_id c < el_id d)%N -> pushed_one c d
| PushedIn c d : pushed c d -> pushed_one c d.

(** ** Conversion from malvolio nodes *)
From Verif Require Import HtmlModel.
(** The HTML tag a node stands for. *)
Definition tag_of (k : kind) : str :=
  match k with
  | KH1 => bs "h1" | KH2 => bs "h2" | KH3 => bs "h3" | KH4 => bs "h4" | KH5 => bs "h5" | KH6 => bs "h6"
  | KP => bs "p" | KForm => bs "form" | KBr => bs "br" | KDiv => bs "div" | KA => bs "a" | KInput => bs "input"
  | KLabel => bs "label" | KSelect => bs "select" | KNoScript => bs "noscript" | KText => [] | KImg => bs "img"
  end.
(** Nodes that carry text. *)
Definition has_text (k : kind) : bool :=
  match k with KForm | KBr | KDiv | KInput | KSelect | KImg => false | _ => true end.
(** The element says what the wrapped node says. *)
Inductive faithful : wrapped -> element -> Prop :=
| Faithful k a t ls cs i es key : Forall2 faithful cs es ->
    faithful (Wrapped k a t ls cs) (Element i (tag_of k) a ls es (if has_text k then Some t else None) key).
(** Nodes the conversion supports. *)
Inductive supported : wrapped -> Prop :=
| SupNest k a t ls cs : In k [KP; KForm; KDiv; KInput] -> Forall supported cs -> supported (Wrapped k a t ls cs)
| SupLeaf k a t ls : In k [KH1; KH2; KH3; KH4; KH5; KH6; KA; KLabel; KImg] -> supported (Wrapped k a t ls [])
| SupBr t : supported (Wrapped KBr [] t [] []).
