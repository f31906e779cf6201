(** Vocabulary for the exact form of C51: which re-renders come out right. *)
From Verif Require Import Base HMap Num DomModel DomSpec.

(** An element without attributes, listeners, text and children. *)
Definition bare (e : element) : Prop := el_attrs e = [] /\ el_listeners e = [] /\ el_children e = [] /\ el_text e = None.
(** Walking the two pages side by side ([W]: the old ids of the nodes we are in), no node gets a larger id, and the new
    elements that get the old id of a node they are in are bare. *)
Inductive level : list N -> element -> element -> Prop :=
| Level W a b : (el_id b <= el_id a)%N -> level_list (el_id a :: W) (el_children a) (el_children b) -> level W a b
with level_list : list N -> list element -> list element -> Prop :=
| LevelAdd W l : Forall (every (fun x => In (el_id x) W -> bare x)) l -> level_list W [] l
| LevelDrop W l : level_list W l []
| LevelCons W c d cs ds : level W c d -> level_list W cs ds -> level_list W (c :: cs) (d :: ds).
(** The node keeps its id, or else its name and its listeners (it may lose all of them). *)
Definition keeps (c d : element) : Prop :=
  el_id c = el_id d \/ el_name c = el_name d /\ (el_listeners c = el_listeners d \/ el_listeners d = []).
(** Two nodes have the same key. *)
Definition same_key (x y : element) : Prop := el_key x = el_key y.
