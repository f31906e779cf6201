(** Model of puck_liveview/src/html: wrapped malvolio nodes and their conversion to elements. *)
From Verif Require Import Base HMap Num DomModel.

(** The variants of malvolio's [BodyNode] handled in html/mod.rs:36-188. *)
Inductive kind := KH1 | KH2 | KH3 | KH4 | KH5 | KH6 | KP | KForm | KBr | KDiv | KA | KInput | KLabel | KSelect | KNoScript | KText | KImg.

(** html/mod.rs:13-19 [WrappedBodyNode]: the node (its variant, [attrs] and [text] as returned by
    into_pub_fields), the listeners and the wrapped children. Children that malvolio nodes can hold
    themselves are never looked at by the code and are left out. *)
Inductive wrapped := Wrapped {
  w_kind : kind;
  w_attrs : hmap str;
  w_text : str;
  w_listeners : list listener;
  w_children : list wrapped }.

(** html/mod.rs:222-233 [wrap]: any node, without listeners and children. *)
Definition wrap (k : kind) (attrs : hmap str) (text : str) : wrapped := Wrapped k attrs text [] [].
(** html/mod.rs:190-193 [listener]. *)
Definition add_listener (l : listener) (w : wrapped) : wrapped :=
  match w with Wrapped k a t ls cs => Wrapped k a t (ls ++ [l]) cs end.
(** html/mod.rs:195-198 [child]. *)
Definition add_child (c : wrapped) (w : wrapped) : wrapped :=
  match w with Wrapped k a t ls cs => Wrapped k a t ls (cs ++ [c]) end.
(** html/mod.rs:200-206 [children]. *)
Definition add_children (l : list wrapped) (w : wrapped) : wrapped :=
  match w with Wrapped k a t ls cs => Wrapped k a t ls (cs ++ l) end.

(** html/id.rs:11-15 [IdGen::new_id]: the id handed out and the new head. *)
Definition new_id (head : N) : N * N := (head, (head + 1)%N).

(** What each arm of html/mod.rs:36-188 builds, apart from the id: the name, whether attributes,
    listeners and children are kept, and the text. [None]: the panic of line 174. *)
Record arm := Arm { arm_name : str; arm_attrs : bool; arm_listeners : bool; arm_children : bool; arm_text : bool }.
Definition arm_of (k : kind) : option arm :=
  match k with
  | KH1 => Some (Arm (bs "h1") true true false true)        (* 38-40, macro 21-34 *)
  | KH2 => Some (Arm (bs "h2") true true false true)        (* 41-43 *)
  | KH3 => Some (Arm (bs "h3") true true false true)        (* 44-46 *)
  | KH4 => Some (Arm (bs "h4") true true false true)        (* 47-49 *)
  | KH5 => Some (Arm (bs "h5") true true false true)        (* 50-52 *)
  | KH6 => Some (Arm (bs "h6") true true false true)        (* 53-55 *)
  | KP => Some (Arm (bs "p") true true true true)           (* 56-71 *)
  | KForm => Some (Arm (bs "form") true true true false)    (* 72-87 *)
  | KBr => Some (Arm (bs "br") false false false false)     (* 88-96 *)
  | KDiv => Some (Arm (bs "div") true true true false)      (* 97-112 *)
  | KA => Some (Arm (bs "a") true true false true)          (* 113-124 *)
  | KInput => Some (Arm (bs "input") true true true false)  (* 125-140 *)
  | KLabel => Some (Arm (bs "label") true true false true)  (* 141-143 *)
  | KSelect => Some (Arm (bs "div") true true true false)   (* 144-159 *)
  | KNoScript => Some (Arm (bs "div") false false false true) (* 160-172 *)
  | KText => None                                           (* 174 *)
  | KImg => Some (Arm (bs "img") true true false false)     (* 175-186 *)
  end.

(** html/mod.rs:36-188 [into_element]: the element and the generator's head afterwards. Struct fields
    are evaluated in the order written: the id before the children. *)
Fixpoint into_element (w : wrapped) (head : N) : option (element * N) :=
  match w with
  | Wrapped k attrs text ls cs =>
      match arm_of k with
      | None => None
      | Some m =>
          let '(i, head1) := new_id head in
          match (if arm_children m
                 then (fix go (l : list wrapped) (h : N) : option (list element * N) :=
                         match l with
                         | [] => Some ([], h)
                         | c :: l' =>
                             match into_element c h with
                             | None => None
                             | Some (e, h') =>
                                 match go l' h' with
                                 | None => None
                                 | Some (es, h'') => Some (e :: es, h'')
                                 end
                             end
                         end) cs head1
                 else Some ([], head1)) with
          | None => None
          | Some (es, head2) =>
              Some (Element i (arm_name m) (if arm_attrs m then attrs else []) (if arm_listeners m then ls else [])
                      es (if arm_text m then Some text else None) None, head2)
          end
      end
  end.
