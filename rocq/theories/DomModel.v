(** Model of puck_liveview's virtual DOM: Element, Element::diff and Changeset::apply. *)
From Verif Require Import Base HMap Num.

(** puck_liveview/src/dom/listener.rs:52-56 [ListenerRef]. *)
Record listener := Listener { l_name : str; l_event : str }.
(** [derive(PartialEq)] on ListenerRef, listener.rs:52. *)
Definition listener_eqb (a b : listener) : bool := str_eqb (l_name a) (l_name b) && str_eqb (l_event a) (l_event b).

(** puck_liveview/src/dom/element/mod.rs:12-24 [Element]. The attribute map is the list of its entries
    in iteration order. *)
Inductive element := Element {
  el_id : N;
  el_name : str;
  el_attrs : hmap str;
  el_listeners : list listener;
  el_children : list element;
  el_text : option str;
  el_key : option str }.

(** Changeset, Op and Instruction: diff/changeset/mod.rs:16-21, 50-54, 57-96. An op is the id (as
    text) and the instruction; Cow is the string itself. *)
Inductive instr :=
| InsertChild (new_child_id : str)
| InsertAfter (after_id : str)
| InsertBefore (before_id : str)
| SetAttribute (key value : str)
| RemoveAttribute (key : str)
| SetId (value : str)
| SetText (value : str)
| SetTagName (name : str)
| CreateTag (name : str) (parent_id : option str)
| RemoveText
| RemoveListeners
| AttachListener (name on : str)
| SetInnerHtml (element html : str)
| DeleteEl.
Record op := Op { op_id : str; op_instr : instr }.

(** element/mod.rs:27-29 [Element::id]. *)
Definition id_str (e : element) : str := dec (el_id e).

Definition text_eqb (a b : option str) : bool :=
  match a, b with
  | None, None => true
  | Some x, Some y => str_eqb x y
  | _, _ => false
  end.
Fixpoint listeners_eqb (a b : list listener) : bool :=
  match a, b with
  | [], [] => true
  | x :: a', y :: b' => listener_eqb x y && listeners_eqb a' b'
  | _, _ => false
  end.

(* ------------------------------------------------------------------ *)
(** ** Diffing: puck_liveview/src/dom/element/diff/mod.rs *)

(** mod.rs:194-208 [generate_listeners]. *)
Definition generate_listeners (e : element) : list op :=
  map (fun l => Op (id_str e) (AttachListener (l_name l) (l_event l))) (el_listeners e).

(** mod.rs:39-76 [create_from_scratch]; [parent] is the id text of the parent. *)
Fixpoint create_from_scratch (e : element) (parent : option str) : list op :=
  match e with
  | Element i n attrs ls cs t k =>
      [Op (dec i) (CreateTag n parent)]
      ++ map (fun kv => Op (dec i) (SetAttribute (fst kv) (snd kv))) attrs
      ++ map (fun l => Op (dec i) (AttachListener (l_name l) (l_event l))) ls
      ++ (match t with Some v => [Op (dec i) (SetText v)] | None => [] end)
      ++ (fix go (l : list element) := match l with [] => [] | c :: l' => create_from_scratch c (Some (dec i)) ++ go l' end) cs
  end.

(** mod.rs:80-99 [diff_text]. *)
Definition diff_text (a b : element) : list op :=
  if text_eqb (el_text a) (el_text b) then []
  else match el_text b with
       | Some v => [Op (id_str a) (SetText v)]
       | None => [Op (id_str a) RemoveText]
       end.
(** mod.rs:103-112 [diff_id]. *)
Definition diff_id (a b : element) : list op :=
  if N.eqb (el_id a) (el_id b) then [] else [Op (id_str a) (SetId (id_str b))].
(** mod.rs:116-127 [diff_name] (addressed to the new element's id, line 119). *)
Definition diff_name (a b : element) : list op :=
  if str_eqb (el_name a) (el_name b) then [] else [Op (id_str b) (SetTagName (el_name b))].
(** mod.rs:131-174 [diff_attributes]. *)
Definition diff_attributes (a b : element) : list op :=
  if hm_eqb (el_attrs a) (el_attrs b) then []
  else flat_map (fun k => if contains_key k (el_attrs b) then [] else [Op (id_str a) (RemoveAttribute k)]) (keys (el_attrs a))
       ++ flat_map (fun kv => match get (fst kv) (el_attrs a) with
            | Some mine => if str_eqb mine (snd kv) then [] else [Op (id_str a) (SetAttribute (fst kv) (snd kv))]
            | None => [Op (id_str a) (SetAttribute (fst kv) (snd kv))]
            end) (el_attrs b).
(** mod.rs:178-191 [diff_listeners]. *)
Definition diff_listeners (a b : element) : list op :=
  if listeners_eqb (el_listeners a) (el_listeners b) then []
  else Op (id_str a) RemoveListeners :: generate_listeners b.

(** mod.rs:211-215 [locate_child_by_key]; called only when every child has a key. *)
Definition key_is (k : str) (e : element) : bool :=
  match el_key e with Some k' => str_eqb k' k | None => false end.
Definition locate (k : str) (cs : list element) : option element := find (key_is k) cs.
(** mod.rs:302-304 [children_are_all_keyed]. *)
Definition is_keyed (e : element) : bool := match el_key e with Some _ => true | None => false end.
Definition all_keyed (e : element) : bool := forallb is_keyed (el_children e).

(** mod.rs:236-252, the instruction for the new keyed child at index [each]; [len] is the number of
    new children. [None]: the index panics. *)
Definition keyed_insert (their : list element) (len each : nat) : option (list op) :=
  match nth_error their each with
  | None => None
  | Some e =>
      if Nat.eqb each 0 then
        match nth_error their 1 with
        | Some x => Some [Op (id_str e) (InsertBefore (id_str x))]
        | None => None
        end
      else if Nat.eqb each len then Some [Op (id_str e) (InsertAfter (id_str e))]
      else match nth_error their (each - 1) with
           | Some x => Some [Op (id_str e) (InsertBefore (id_str x))]
           | None => None
           end
  end.
(** Concatenation of op lists any of which may panic. *)
Fixpoint cat_ops (l : list (option (list op))) : option (list op) :=
  match l with
  | [] => Some []
  | None :: _ => None
  | Some o :: l' => match cat_ops l' with Some o' => Some (o ++ o') | None => None end
  end.
(** The indices pushed to [unpaired], mod.rs:224-232. *)
Fixpoint unpaired (mine : list element) (i : nat) (theirs : list element) : list nat :=
  match theirs with
  | [] => []
  | d :: ds =>
      match el_key d with
      | Some k => match locate k mine with Some _ => unpaired mine (S i) ds | None => i :: unpaired mine (S i) ds end
      | None => i :: unpaired mine (S i) ds
      end
  end.
(** mod.rs:255-266, the deletions of the keyed branch. *)
Definition keyed_deletes (mine theirs : list element) : list op :=
  flat_map (fun c => match el_key c with
    | Some k => match locate k theirs with Some _ => [] | None => [Op (id_str c) DeleteEl] end
    | None => []
    end) mine.

Definition diff_own (a b : element) : list op :=
  diff_name a b ++ diff_attributes a b ++ diff_text a b ++ diff_listeners a b.

(** mod.rs:16-33 [Element::diff] against [Some b], with mod.rs:219-299 [diff_children] inlined.
    [None]: a panic. *)
Fixpoint diff_to (b a : element) {struct b} : option (list op) :=
  match b with
  | Element bi bn ba bl bc bt bk =>
      let kids :=
        if all_keyed a && forallb is_keyed bc then
          cat_ops
            [ cat_ops ((fix pairs (ds : list element) : list (option (list op)) :=
                 match ds with
                 | [] => []
                 | d :: ds' =>
                     match el_key d with
                     | Some k => match locate k (el_children a) with
                                 | Some c => diff_to d c :: pairs ds'
                                 | None => pairs ds'
                                 end
                     | None => pairs ds'
                     end
                 end) bc);
              (let un := unpaired (el_children a) 0 bc in cat_ops (map (keyed_insert bc (length un)) un));
              Some (keyed_deletes (el_children a) bc) ]
        else
          let n := length (el_children a) in
          let m := length bc in
          let zip := cat_ops ((fix zip (ds cs : list element) : list (option (list op)) :=
                 match ds, cs with
                 | d :: ds', c :: cs' => diff_to d c :: zip ds' cs'
                 | _, _ => []
                 end) bc (el_children a)) in
          if Nat.eqb n m then zip
          else if Nat.ltb m n then
            cat_ops [Some (map (fun c => Op (id_str c) DeleteEl) (skipn m (el_children a))); zip]
          else cat_ops [zip; Some (flat_map (fun d => create_from_scratch d (Some (id_str a))) (skipn n bc))]
      in
      cat_ops [Some (diff_own a b); kids; Some (diff_id a b)]
  end.
(** mod.rs:16-33 [Element::diff]. *)
Definition diff (a : element) (other : option element) : option (list op) :=
  match other with
  | Some b => diff_to b a
  | None => Some (create_from_scratch a None)
  end.

(* ------------------------------------------------------------------ *)
(** ** Applying: puck_liveview/src/dom/element/diff/changeset/apply.rs *)

(** apply.rs:192-203 [find_el_with_id] followed by a mutation of the element found: depth first, the
    first hit in document order. Outer [None]: not found; inner [None]: the mutation panics. *)
Fixpoint find_mutate (i : N) (f : element -> option element) (e : element) : option (option element) :=
  match e with
  | Element ei n attrs ls cs t k =>
      if N.eqb i ei then Some (f e)
      else
        match (fix go (l : list element) : option (option (list element)) :=
                 match l with
                 | [] => None
                 | c :: l' =>
                     match find_mutate i f c with
                     | Some (Some c') => Some (Some (c' :: l'))
                     | Some None => Some None
                     | None => match go l' with
                               | Some (Some l'') => Some (Some (c :: l''))
                               | Some None => Some None
                               | None => None
                               end
                     end
                 end) cs with
        | Some (Some cs') => Some (Some (Element ei n attrs ls cs' t k))
        | Some None => Some None
        | None => None
        end
  end.
(** apply.rs:178-181 [find_and_mutate] and the explicit find + expect: not finding the element panics. *)
Definition mutate (i : N) (f : element -> option element) (e : element) : option element :=
  match find_mutate i f e with Some r => r | None => None end.

(** apply.rs:161-172 [find_parent_id]. *)
Fixpoint find_parent_id (e : element) (i : N) : option N :=
  match e with
  | Element ei _ _ _ cs _ _ =>
      (fix go (l : list element) : option N :=
         match l with
         | [] => None
         | c :: l' => if N.eqb (el_id c) i then Some ei
                      else match find_parent_id c i with Some p => Some p | None => go l' end
         end) cs
  end.

(** The first position satisfying a test ([Iterator::position] / [find_map]). *)
Fixpoint position (p : element -> bool) (l : list element) : option nat :=
  match l with
  | [] => None
  | c :: l' => if p c then Some 0 else match position p l' with Some n => Some (S n) | None => None end
  end.
Definition insert_at (n : nat) (x : element) (l : list element) : list element := firstn n l ++ x :: skipn n l.
Definition remove_at (n : nat) (l : list element) : list element := firstn n l ++ skipn (S n) l.

(** [Element { id, name, ..Default::default() }]. *)
Definition blank (i : N) (n : str) : element := Element i n [] [] [] None None.

Definition with_id (i : N) (e : element) := match e with Element _ n a l c t k => Element i n a l c t k end.
Definition with_name (n : str) (e : element) := match e with Element i _ a l c t k => Element i n a l c t k end.
Definition with_attrs (a : hmap str) (e : element) := match e with Element i n _ l c t k => Element i n a l c t k end.
Definition with_listeners (l : list listener) (e : element) := match e with Element i n a _ c t k => Element i n a l c t k end.
Definition with_children (c : list element) (e : element) := match e with Element i n a l _ t k => Element i n a l c t k end.
Definition with_text (t : option str) (e : element) := match e with Element i n a l c _ k => Element i n a l c t k end.

(** apply.rs:16-157, one iteration of [Changeset::apply]. [max]: usize::MAX. [None]: a panic. *)
Definition apply_op (max : N) (o : op) (e : element) : option element :=
  match parse_uint max (op_id o) with
  | None => None                                                          (* line 17, expect in parse *)
  | Some i =>
      match op_instr o with
      | InsertChild nid =>                                                (* 19-27 *)
          match parse_uint max nid with
          | Some j => mutate i (fun x => Some (with_children (el_children x ++ [blank j []]) x)) e
          | None => None
          end
      | InsertAfter aid =>                                                (* 28-57 *)
          mutate i (fun x =>
            match el_children x with
            | [] => None
            | cs => match parse_uint max aid with
                    | None => None
                    | Some j => match position (fun c => N.eqb (el_id c) j) cs with
                                | None => None
                                | Some p => Some (with_children (insert_at (S p) (blank j []) cs) x)
                                end
                    end
            end) e
      | InsertBefore bid =>                                               (* 58-87 *)
          mutate i (fun x =>
            match el_children x with
            | [] => None
            | cs => match parse_uint max bid with
                    | None => None
                    | Some j => match position (fun c => N.eqb (el_id c) j) cs with
                                | None => None
                                | Some p => Some (with_children (insert_at p (blank j []) cs) x)
                                end
                    end
            end) e
      | SetAttribute k v => mutate i (fun x => Some (with_attrs (insert k v (el_attrs x)) x)) e   (* 88-94 *)
      | SetId v => match parse_uint max v with                             (* 95-99 *)
                   | Some j => mutate i (fun x => Some (with_id j x)) e
                   | None => None
                   end
      | SetText v => mutate i (fun x => Some (with_text (Some v) x)) e     (* 100-104 *)
      | SetTagName n => mutate i (fun x => Some (with_name n x)) e         (* 105-109 *)
      | CreateTag n p =>                                                  (* 110-120 *)
          match p with
          | None => None
          | Some p => match parse_uint max p with
                      | None => None
                      | Some j => mutate j (fun x => Some (with_children (el_children x ++ [blank i n]) x)) e
                      end
          end
      | RemoveText => mutate i (fun x => Some (with_text None x)) e        (* 121-123 *)
      | RemoveListeners => mutate i (fun x => Some (with_listeners [] x)) e (* 124-128 *)
      | AttachListener n ev => mutate i (fun x => Some (with_listeners (el_listeners x ++ [Listener n ev]) x)) e (* 129-133 *)
      | SetInnerHtml _ _ => None                                          (* 134-139 *)
      | RemoveAttribute k => mutate i (fun x => Some (with_attrs (remove k (el_attrs x)) x)) e (* 140-145 *)
      | DeleteEl =>                                                       (* 146-156 *)
          match find_parent_id e i with
          | None => None
          | Some p => mutate p (fun x =>
              match position (fun c => N.eqb (el_id c) i) (el_children x) with
              | None => None
              | Some q => Some (with_children (remove_at q (el_children x)) x)
              end) e
          end
      end
  end.
(** apply.rs:15 [Changeset::apply]: all operations in order. *)
Fixpoint apply (max : N) (os : list op) (e : element) : option element :=
  match os with
  | [] => Some e
  | o :: os' => match apply_op max o e with Some e' => apply max os' e' | None => None end
  end.
