(** Vocabulary for the exact form of C59: which right changesets the browser also gets right. *)
From Verif Require Import Base HMap Num DomModel DomSpec ClientSpec.

(** Only elements without content are renamed (or those whose only content, a text, is replaced). Renaming an element with
    content parses its markup again. *)
Definition renamed_empty (a b : element) : Prop :=
  el_name a = el_name b \/
  (el_name b <> bs "html" /\ el_children a = [] /\
   (text_of (el_text a) = [] \/ exists v, el_text b = Some v /\ el_text a <> Some v)).
(** The element has no listeners that it keeps. *)
Definition relisted (c d : element) : Prop := el_listeners c = [] \/ el_listeners c <> el_listeners d.
(** - An element that keeps its listeners is not renamed;
    - a text is not put into an element that had children, and a text that was shown is not taken away;
    - where the listeners of an element change, no element in it keeps listeners. *)
Definition carries (a b : element) : Prop :=
  (el_name a = el_name b \/ relisted a b) /\
  (el_text a = el_text b \/ (el_text b <> None /\ el_children a = []) \/ (el_text b = None /\ text_of (el_text a) = [])) /\
  (el_listeners a = el_listeners b \/ matched_list relisted (el_children a) (el_children b)).
