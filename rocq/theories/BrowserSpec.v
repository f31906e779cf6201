(** What each instruction does to the document in the browser. *)
From Verif Require Import Base HMap Num Json DomModel DomSpec ClientModel ClientSpec.

(** Names the browser takes for elements and attributes (XML 1.0 Name; all characters outside ASCII are taken for letters). *)
Definition start_chars : str := bs "ABCDEFGHIJKLMNOPQRSTUVWXYZabcdefghijklmnopqrstuvwxyz_:".
Definition more_chars : str := bs "0123456789-.".
Definition xml_name (s : str) : Prop :=
  exists b r, s = b :: r /\ (In b start_chars \/ (128 <= b2n b)%N) /\
    Forall (fun c => In c start_chars \/ In c more_chars \/ (128 <= b2n c)%N) r.

(** One place of a document changes: a node is replaced by some nodes, as [R] says. *)
Inductive node_edit (R : node -> list node -> Prop) : list node -> list node -> Prop :=
| ne_here l1 n r l2 : R n r -> node_edit R (l1 ++ n :: l2) (l1 ++ r ++ l2)
| ne_below l1 t a l k k' l2 : node_edit R k k' -> node_edit R (l1 ++ Elem t a l k :: l2) (l1 ++ Elem t a l k' :: l2).

(** All values of id attributes, in document order. *)
Fixpoint doc_ids (n : node) : list str :=
  match n with
  | Text _ => []
  | Elem _ a _ kids => match get attr_id a with Some i => [i] | None => [] end ++ flat_map doc_ids kids
  end.

Definition new_tag (name i : str) : node := Elem (to_lower name) [(attr_id, i)] [] [].
(** An instruction addressed to the element with id [i]: [reparse] is what becomes of the children when their markup is
    parsed again. *)
Inductive browser_effect (reparse : str -> str -> list node -> list node) (i : str) : instr -> list node -> list node -> Prop :=
| be_create_root n doc : valid_name n = true -> browser_effect reparse i (CreateTag n None) doc (doc ++ [new_tag n i])
| be_create_below n p doc doc' : valid_name n = true ->
    node_edit (fun x r => exists t a l k, x = Elem t a l k /\ get attr_id a = Some p /\ r = [Elem t a l (k ++ [new_tag n i])]) doc doc' ->
    browser_effect reparse i (CreateTag n (Some p)) doc doc'
| be_set_attr key v doc doc' : valid_name key = true ->
    node_edit (fun x r => exists t a l k, x = Elem t a l k /\ get attr_id a = Some i /\ r = [Elem t (insert (to_lower key) (cut v) a) l k]) doc doc' ->
    browser_effect reparse i (SetAttribute key v) doc doc'
| be_remove_attr key doc doc' :
    node_edit (fun x r => exists t a l k, x = Elem t a l k /\ get attr_id a = Some i /\ r = [Elem t (remove (to_lower key) a) l k]) doc doc' ->
    browser_effect reparse i (RemoveAttribute key) doc doc'
| be_set_tag n doc doc' : valid_name n = true ->
    node_edit (fun x r => exists t a l k, x = Elem t a l k /\ get attr_id a = Some i /\ r = [Elem (to_lower n) a [] (reparse t (to_lower n) k)]) doc doc' ->
    browser_effect reparse i (SetTagName n) doc doc'
| be_set_text v doc doc' :
    node_edit (fun x r => exists t a l k, x = Elem t a l k /\ get attr_id a = Some i /\ r = [Elem t a l (match v with [] => [] | _ => [Text v] end)]) doc doc' ->
    browser_effect reparse i (SetText v) doc doc'
| be_attach n ev doc doc' :
    node_edit (fun x r => exists t a l k, x = Elem t a l k /\ get attr_id a = Some i /\ r = [Elem t a (l ++ [(cut ev, n)]) k]) doc doc' ->
    browser_effect reparse i (AttachListener n ev) doc doc'
| be_remove_listeners doc doc' :
    node_edit (fun x r => exists t a l k, x = Elem t a l k /\ get attr_id a = Some i /\ r = [Elem t a [] (map clone k)]) doc doc' ->
    browser_effect reparse i RemoveListeners doc doc'
| be_delete doc doc' :
    node_edit (fun x r => exists t a l k, x = Elem t a l k /\ get attr_id a = Some i /\ r = []) doc doc' ->
    browser_effect reparse i DeleteEl doc doc'
| be_set_id v doc doc' :
    node_edit (fun x r => exists t a l k, x = Elem t a l k /\ get attr_id a = Some i /\ r = [Elem t (insert attr_id v a) l k]) doc doc' ->
    browser_effect reparse i (SetId v) doc doc'
(** index.js has no branch for these. *)
| be_ignored ins doc : match ins with InsertChild _ | InsertAfter _ | InsertBefore _ | RemoveText | SetInnerHtml _ _ => True | _ => False end ->
    browser_effect reparse i ins doc doc.

(** The first of the two parts glued together has no "+" (and the parent's id is a proper one). *)
Definition head_plain (i : instr) : Prop :=
  match i with
  | SetAttribute k _ => plus_free k
  | AttachListener n _ => plus_free n
  | CreateTag n p => plus_free n /\ match p with Some p => plus_free p /\ p <> [] | None => True end
  | _ => True
  end.
