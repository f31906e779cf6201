(** The browser with typed text refines the browser without; places of elements; what stays typed. *)
From Verif Require Import Base HMap Num Json DomModel DomSpec ClientModel ClientSpec ClientProofs BrowserProofs UserModel.
From Coq Require Import Lia.

Lemma vnode_ind2 (P : vnode -> Prop) : (forall s, P (VText s)) -> (forall t a ty l kids, Forall P kids -> P (VElem t a ty l kids)) -> forall n, P n.
Proof.
  intros H1 H2. fix IH 1. intros [s|t a ty l kids]; [apply H1|]. apply H2. induction kids as [|k kids IHk]; constructor; [apply IH|exact IHk].
Qed.
Lemma cnode_ind2 (P : node -> Prop) : (forall s, P (Text s)) -> (forall t a l kids, Forall P kids -> P (Elem t a l kids)) -> forall n, P n.
Proof.
  intros H1 H2. fix IH 1. intros [s|t a l kids]; [apply H1|]. apply H2. induction kids as [|k kids IHk]; constructor; [apply IH|exact IHk].
Qed.
Lemma erase_fresh n : erase (fresh n) = n.
Proof.
  induction n as [s|t a l kids IH] using cnode_ind2; [reflexivity|]. cbn [fresh erase]. f_equal. rewrite map_map. induction IH as [|k kids Hk _ IH]; [reflexivity|]. cbn [map]. now rewrite Hk, IH.
Qed.
Lemma erase_freshes ns : map erase (map fresh ns) = ns.
Proof. induction ns as [|n ns IH]; [reflexivity|]. cbn [map]. now rewrite erase_fresh, IH. Qed.
Lemma erase_clone n : erase (v_clone n) = clone (erase n).
Proof.
  induction n as [s|t a ty l kids IH] using vnode_ind2; [reflexivity|]. cbn [v_clone erase clone]. f_equal. rewrite !map_map. induction IH as [|k kids Hk _ IH]; [reflexivity|]. cbn [map]. now rewrite Hk, IH.
Qed.
Lemma erase_id i n : has_id i (erase n) = v_has_id i n.
Proof. destruct n; reflexivity. Qed.

Lemma v_edit_eq i f t a ty l kids : v_edit i f (VElem t a ty l kids) =
  if v_has_id i (VElem t a ty l kids) then Some (f (VElem t a ty l kids))
  else match v_edits i f kids with
       | Some (Some kids') => Some (Some [VElem t a ty l kids']) | Some None => Some None | None => None end.
Proof.
  cbn [v_edit]. destruct (v_has_id i (VElem t a ty l kids)); [reflexivity|]. 
  assert (forall ns, (fix go (ns : list vnode) : option (option (list vnode)) :=
     match ns with [] => None | c :: ns' => match v_edit i f c with Some (Some r) => Some (Some (r ++ ns')) | Some None => Some None
       | None => match go ns' with Some (Some r) => Some (Some (c :: r)) | Some None => Some None | None => None end end end) ns = v_edits i f ns) as ->; [|reflexivity].
  induction ns as [|c ns IH]; [reflexivity|]. cbn [v_edits]. now rewrite IH.
Qed.
Lemma edit_node_eq i f t a l kids : edit_node i f (Elem t a l kids) =
  if has_id i (Elem t a l kids) then Some (f (Elem t a l kids))
  else match edit_nodes i f kids with
       | Some (Some kids') => Some (Some [Elem t a l kids']) | Some None => Some None | None => None end.
Proof.
  cbn [edit_node]. destruct (has_id i (Elem t a l kids)); [reflexivity|]. 
  assert (forall ns, (fix go (ns : list node) : option (option (list node)) :=
     match ns with [] => None | c :: ns' => match edit_node i f c with Some (Some r) => Some (Some (r ++ ns')) | Some None => Some None
       | None => match go ns' with Some (Some r) => Some (Some (c :: r)) | Some None => Some None | None => None end end end) ns = edit_nodes i f ns) as ->; [|reflexivity].
  induction ns as [|c ns IH]; [reflexivity|]. cbn [edit_nodes]. now rewrite IH.
Qed.
Definition erased (r : option (option (list vnode))) : option (option (list node)) := option_map (option_map (map erase)) r.
Lemma edits_erase_aux i f ns : Forall (fun n => forall g, (forall n, option_map (map erase) (f n) = g (erase n)) -> erased (v_edit i f n) = edit_node i g (erase n)) ns ->
  forall g, (forall n, option_map (map erase) (f n) = g (erase n)) -> erased (v_edits i f ns) = edit_nodes i g (map erase ns).
Proof.
  induction 1 as [|n ns Hn _ IH]; intros g Hf; [reflexivity|]. cbn [v_edits edit_nodes map]. specialize (Hn g Hf). specialize (IH g Hf). rewrite <- Hn, <- IH.
  destruct (v_edit i f n) as [[r|]|]; cbn [erased option_map]; [now rewrite map_app|reflexivity|]. destruct (v_edits i f ns) as [[r|]|]; reflexivity.
Qed.
Lemma edit_erase i f n : forall g, (forall n, option_map (map erase) (f n) = g (erase n)) -> erased (v_edit i f n) = edit_node i g (erase n).
Proof.
  induction n as [s|t a ty l kids IH] using vnode_ind2; intros g Hf; [reflexivity|].
  rewrite v_edit_eq. cbn [erase]. rewrite edit_node_eq.
  change (Elem t a l (map erase kids)) with (erase (VElem t a ty l kids)). rewrite erase_id. destruct (v_has_id i _); [cbn [erased option_map]; now rewrite Hf|].
  rewrite <- (edits_erase_aux i f kids IH g Hf). destruct (v_edits i f kids) as [[r|]|]; reflexivity.
Qed.
Lemma by_id_erase i f g d : (forall n, option_map (map erase) (f n) = g (erase n)) -> option_map (map erase) (v_by_id i f d) = by_id i g (map erase d).
Proof.
  intros Hf. unfold v_by_id, by_id. rewrite <- (edits_erase_aux i f d); [|apply Forall_forall; intros n _ g'; apply edit_erase|exact Hf]. now destruct (v_edits i f d) as [[r|]|].
Qed.
Lemma exec_erase reparse o d : option_map (map erase) (v_exec reparse o d) = js_exec reparse o (map erase d).
Proof.
  unfold v_exec, js_exec. cbv zeta.
  destruct (str_eqb (js_ty o) (bs "createTag")).
  { destruct (js_payload o) as [p|]; [|reflexivity]. destruct (part 0 p) as [name|]; [|reflexivity]. destruct (make_el name (js_el o)) as [el|]; [|reflexivity].
    destruct (part 1 p) as [[|q0 q]|]; try (cbn [option_map]; rewrite map_app; cbn [map]; now rewrite erase_fresh).
    apply by_id_erase. intros [s|t a ty l kids]; [reflexivity|]. cbn [option_map map erase]. rewrite map_app. cbn [map]. now rewrite erase_fresh. }
  destruct (str_eqb (js_ty o) (bs "setAttr")).
  { destruct (js_payload o) as [p|]; [|reflexivity]. apply by_id_erase. intros [s|t a ty l kids]; [reflexivity|]. cbn [erase]. destruct (part 0 p) as [k|]; [|reflexivity]. now destruct (valid_name k). }
  destruct (str_eqb (js_ty o) (bs "removeAttr")).
  { destruct (js_payload o) as [p|]; [|reflexivity]. apply by_id_erase. intros [s|t a ty l kids]; reflexivity. }
  destruct (str_eqb (js_ty o) (bs "setTagName")).
  { destruct (js_payload o) as [p|]; [|reflexivity]. apply by_id_erase. intros [s|t a ty l kids]; [reflexivity|]. cbn [erase]. destruct (valid_name p); [|reflexivity].
    cbn [option_map map erase]. now rewrite erase_freshes. }
  destruct (str_eqb (js_ty o) (bs "setText")).
  { destruct (js_payload o) as [p|]; [|reflexivity]. apply by_id_erase. intros [s|t a ty l kids]; [reflexivity|]. cbn [option_map map erase]. now rewrite erase_freshes. }
  destruct (str_eqb (js_ty o) (bs "attachListener")).
  { destruct (js_payload o) as [p|]; [|reflexivity]. apply by_id_erase. intros [s|t a ty l kids]; [reflexivity|]. cbn [erase]. destruct (part 0 p), (part 1 p); reflexivity. }
  destruct (str_eqb (js_ty o) (bs "removeListeners")).
  { apply by_id_erase. intros n. cbn [option_map map]. now rewrite erase_clone. }
  destruct (str_eqb (js_ty o) (bs "deleteEl")).
  { now apply by_id_erase. }
  destruct (str_eqb (js_ty o) (bs "setId")).
  { destruct (js_payload o) as [p|]; [|reflexivity]. apply by_id_erase. intros [s|t a ty l kids]; reflexivity. }
  reflexivity.
Qed.
Lemma run_erase reparse os : forall d, let '(d', ok) := v_run reparse os d in js_run reparse os (map erase d) = (map erase d', ok).
Proof.
  induction os as [|o os IH]; intros d; cbn [v_run js_run]; [reflexivity|]. rewrite <- exec_erase. destruct (v_exec reparse o d) as [d1|]; cbn [option_map]; [apply IH|reflexivity].
Qed.
Lemma message_erase reparse text d : let '(d', ok) := v_message reparse text d in on_message reparse text (map erase d) = (map erase d', ok).
Proof. unfold v_message, on_message. destruct (read_message text); [apply run_erase|reflexivity]. Qed.

Lemma erase_update_nth j f ns : (forall n, erase (f n) = erase n) -> map erase (update_nth j f ns) = map erase ns.
Proof. intros Hf. revert j. induction ns as [|n ns IH]; intros [|j]; cbn [update_nth map]; [reflexivity|reflexivity|now rewrite Hf|now rewrite IH]. Qed.
Lemma erase_type t p : forall ns, map erase (type_at t p ns) = map erase ns.
Proof.
  induction p as [|j p IH]; intros ns; [reflexivity|]. cbn [type_at]. apply erase_update_nth. intros [s|tag a ty l kids]; [reflexivity|].
  destruct p; [reflexivity|]. cbn [erase]. now rewrite IH.
Qed.

(* ------------------------------------------------------------------ *)
(** ** Places *)
Definition v_kids (n : vnode) : list vnode := match n with VElem _ _ _ _ kids => kids | VText _ => [] end.
Definition v_typed (n : vnode) : option str := match n with VElem _ _ ty _ _ => ty | VText _ => None end.
Definition v_id (n : vnode) : option str := match n with VElem _ a _ _ _ => get attr_id a | VText _ => None end.
Definition v_tag (n : vnode) : option str := match n with VElem t _ _ _ _ => Some t | VText _ => None end.
(** What is at a place and on the way to it: tag names, ids, and what was typed. *)
Definition v_info (n : vnode) := (v_tag n, v_id n, v_typed n).
Definition look (p : place) (ns : list vnode) := map v_info (on_the_way p ns).
Definition is_place (p : place) (ns : list vnode) : Prop := length (on_the_way p ns) = length p.

Lemma way_cons j p ns : on_the_way (j :: p) ns = match nth_error ns j with Some n => on_the_way p (v_kids n) ++ [n] | None => [] end.
Proof. cbn [on_the_way]. destruct (nth_error ns j) as [[|]|]; reflexivity. Qed.
Lemma is_place_cons j p ns : is_place (j :: p) ns <-> exists n, nth_error ns j = Some n /\ is_place p (v_kids n).
Proof.
  unfold is_place. rewrite way_cons. destruct (nth_error ns j) as [n|]; split.
  - intros H. rewrite app_length in H. cbn [length] in H. exists n. split; [reflexivity|lia].
  - intros (n' & [= <-] & H). rewrite app_length, H. cbn [length]. lia.
  - discriminate.
  - now intros (n & [=] & _).
Qed.
Lemma is_place_nil ns : is_place [] ns.
Proof. reflexivity. Qed.
Lemma node_at_way p : forall ns, p <> [] -> is_place p ns -> node_at p ns = hd_error (on_the_way p ns).
Proof.
  induction p as [|j p IH]; intros ns H Hp; [congruence|]. apply is_place_cons in Hp as (n & E & Hp). rewrite way_cons, E. cbn [node_at]. rewrite E.
  destruct p as [|k p]; [reflexivity|]. specialize (IH (v_kids n)). assert (k :: p <> []) as Hne by discriminate. specialize (IH Hne Hp).
  pose proof Hp as Hp'. unfold is_place in Hp'. destruct (on_the_way (k :: p) (v_kids n)) as [|x xs] eqn:Ew; [discriminate|]. cbn [app hd_error] in *.
  destruct n as [s|tag a ty l kids]; [destruct k; discriminate Ew|]. exact IH.
Qed.

(** An action that leaves a node where it is, with its tag, id and typed text, and everything below [q] in place. *)
Definition in_place (f : vnode -> option (list vnode)) (n : vnode) (q : place) : Prop :=
  forall r, f n = Some r -> exists n', r = [n'] /\ v_info n' = v_info n /\ (is_place q (v_kids n) -> is_place q (v_kids n') /\ look q (v_kids n') = look q (v_kids n)).
Lemma edits_split i f ns ns' : v_edits i f ns = Some (Some ns') -> exists l1 c l2 r, ns = l1 ++ c :: l2 /\ v_edit i f c = Some (Some r) /\ ns' = l1 ++ r ++ l2.
Proof.
  revert ns'. induction ns as [|c ns IH]; intros ns'; cbn [v_edits]; [discriminate|]. destruct (v_edit i f c) as [[r|]|] eqn:E; [| |].
  - intros [= <-]. exists [], c, ns, r. auto.
  - discriminate.
  - destruct (v_edits i f ns) as [[r|]|] eqn:E2; try discriminate. intros [= <-]. destruct (IH r eq_refl) as (l1 & c' & l2 & r' & -> & H1 & ->).
    exists (c :: l1), c', l2, r'. auto.
Qed.
Lemma nth_split_app {A} (l1 : list A) c l2 j : nth_error (l1 ++ c :: l2) j =
  if Nat.eqb j (length l1) then Some c else nth_error (l1 ++ l2) (if Nat.ltb j (length l1) then j else j - 1).
Proof.
  destruct (Nat.eqb_spec j (length l1)) as [->|Hn].
  - rewrite nth_error_app2 by lia. now rewrite Nat.sub_diag.
  - destruct (Nat.ltb_spec j (length l1)) as [L|L].
    + now rewrite !nth_error_app1 by lia.
    + rewrite (nth_error_app2 l1 (c :: l2)) by lia. rewrite (nth_error_app2 l1 l2) by lia.
      destruct (j - length l1) as [|m] eqn:Em; [lia|]. cbn [nth_error]. f_equal. lia.
Qed.
(** The action is applied to one node; if that is on the way to [p], it must leave the rest of the way in place. *)
Lemma edits_look i f : forall p ns ns', v_edits i f ns = Some (Some ns') -> is_place p ns ->
  (forall n, v_has_id i n = true -> exists n', f n = Some [n'] \/ f n = None) ->
  (forall q1 q2 n, p = q1 ++ q2 -> q1 <> [] -> node_at q1 ns = Some n -> v_has_id i n = true -> in_place f n q2) ->
  is_place p ns' /\ look p ns' = look p ns.
Proof.
  induction p as [|j p IH]; intros ns ns' E Hp Hone Hf; [split; [apply is_place_nil|reflexivity]|].
  apply edits_split in E as (l1 & c & l2 & r & -> & Ec & ->). apply is_place_cons in Hp as (n & En & Hp).
  assert (exists c', r = [c']) as (c' & ->).
  { destruct c as [s|t a ty l kids]; [discriminate Ec|]. rewrite v_edit_eq in Ec. destruct (v_has_id i _) eqn:Eh.
    - destruct (Hone _ Eh) as (n' & [Hn|Hn]); rewrite Hn in Ec; [injection Ec as <-; eauto|discriminate].
    - destruct (v_edits i f kids) as [[k|]|]; try discriminate. injection Ec as <-. eauto. }
  cbn [app]. destruct (Nat.eqb_spec j (length l1)) as [->|Hn].
  - rewrite nth_split_app, Nat.eqb_refl in En. injection En as <-.
    assert (v_info c' = v_info c /\ is_place p (v_kids c') /\ look p (v_kids c') = look p (v_kids c)) as (I1 & I2 & I3).
    { destruct c as [s|t a ty l kids]; [discriminate Ec|]. rewrite v_edit_eq in Ec. destruct (v_has_id i _) eqn:Eh.
      - injection Ec as Ec. assert (in_place f (VElem t a ty l kids) p) as Hin.
        { apply (Hf [length l1] p _ eq_refl); [discriminate| |exact Eh]. cbn [node_at]. now rewrite nth_split_app, Nat.eqb_refl. }
        destruct (Hin _ Ec) as (n' & [= <-] & H1 & H2). destruct (H2 Hp). auto.
      - destruct (v_edits i f kids) as [[k|]|] eqn:Ek; try discriminate. injection Ec as <-. split; [reflexivity|]. cbn [v_kids] in *.
        apply (IH kids k Ek Hp Hone). intros q1 q2 n -> Hq Hn Hi. apply (Hf (length l1 :: q1) q2 n eq_refl); [discriminate| |exact Hi].
        cbn [node_at]. destruct q1 as [|k1 q1]; [congruence|]. now rewrite nth_split_app, Nat.eqb_refl. }
    split; [apply is_place_cons; exists c'; rewrite nth_split_app, Nat.eqb_refl; auto|].
    unfold look in *. rewrite !way_cons, !nth_split_app, !Nat.eqb_refl, !map_app. cbn [map]. now rewrite I1, I3.
  - assert (nth_error (l1 ++ c' :: l2) j = Some n) as En'.
    { rewrite nth_split_app in *. destruct (Nat.eqb_spec j (length l1)); [lia|]. exact En. }
    split; [apply is_place_cons; exists n; auto|]. unfold look. now rewrite !way_cons, En, En'.
Qed.

Lemma ancestor_in q1 : forall q2 ns n, q1 <> [] -> q2 <> [] -> is_place (q1 ++ q2) ns -> node_at q1 ns = Some n -> In n (tl (on_the_way (q1 ++ q2) ns)).
Proof.
  induction q1 as [|j q1 IH]; intros q2 ns n H1 H2 Hp Hn; [congruence|]. cbn [app] in *. rewrite way_cons. apply is_place_cons in Hp as (m & Em & Hp). rewrite Em.
  cbn [node_at] in Hn. rewrite Em in Hn.
  assert (on_the_way (q1 ++ q2) (v_kids m) <> []) as Hne.
  { intros E. unfold is_place in Hp. rewrite E, app_length in Hp. cbn in Hp. destruct q2; [congruence|cbn in Hp; lia]. }
  destruct (on_the_way (q1 ++ q2) (v_kids m)) as [|x xs] eqn:Ew; [congruence|]. cbn [app tl]. apply in_or_app.
  destruct q1 as [|k q1].
  - injection Hn as <-. right. now left.
  - left. destruct m as [s|t a ty l kids]; [discriminate|]. cbn [v_kids] in *. specialize (IH q2 kids n ltac:(discriminate) H2 Hp Hn). now rewrite Ew in IH.
Qed.
Lemma look_app ns more p : is_place p ns -> p <> [] -> is_place p (ns ++ more) /\ look p (ns ++ more) = look p ns.
Proof.
  destruct p as [|j p]; [congruence|]. intros Hp _. apply is_place_cons in Hp as (n & En & Hp).
  assert (nth_error (ns ++ more) j = Some n) as E by (rewrite nth_error_app1; [exact En|apply nth_error_Some; congruence]).
  split; [apply is_place_cons; eauto|]. unfold look. now rewrite !way_cons, En, E.
Qed.
Lemma kids_clone n : v_kids (v_clone n) = map v_clone (v_kids n).
Proof. now destruct n. Qed.
Lemma info_clone n : v_info (v_clone n) = v_info n.
Proof. now destruct n. Qed.
Lemma look_clone p : forall ns, is_place p ns -> is_place p (map v_clone ns) /\ look p (map v_clone ns) = look p ns.
Proof.
  induction p as [|j p IH]; intros ns Hp; [split; [apply is_place_nil|reflexivity]|]. apply is_place_cons in Hp as (n & En & Hp). destruct (IH _ Hp) as [H1 H2].
  assert (nth_error (map v_clone ns) j = Some (v_clone n)) as E by (now rewrite nth_error_map, En).
  split; [apply is_place_cons; exists (v_clone n); rewrite kids_clone; auto|]. unfold look in *. rewrite !way_cons, En, E, kids_clone, !map_app, H2. cbn [map]. now rewrite info_clone.
Qed.

(** Instructions that leave all elements where they are and keep their ids. *)
Definition calm (o : op) : Prop :=
  match op_instr o with
  | SetAttribute k _ => to_lower (cut k) <> attr_id
  | RemoveAttribute k => to_lower k <> attr_id
  | SetId _ | SetTagName _ | DeleteEl => False
  | _ => True
  end.
(** No element above the place has the id. *)
Definition not_above (i : str) (p : place) (d : list vnode) : Prop := Forall (fun n => v_has_id i n = false) (tl (on_the_way p d)).

Lemma by_id_look i f p d d' : v_by_id i f d = Some d' -> is_place p d ->
  (forall n, v_has_id i n = true -> exists n', f n = Some [n'] \/ f n = None) ->
  (forall q1 q2 n, p = q1 ++ q2 -> q1 <> [] -> node_at q1 d = Some n -> v_has_id i n = true -> in_place f n q2) ->
  is_place p d' /\ look p d' = look p d.
Proof. unfold v_by_id. destruct (v_edits i f d) as [[r|]|] eqn:E; try discriminate. intros [= <-]. now apply edits_look with (i := i) (f := f). Qed.
Lemma exec_look reparse o p d d' : calm o -> (forall v, op_instr o = SetText v -> not_above (op_id o) p d) -> p <> [] ->
  v_exec reparse (js_op o) d = Some d' -> is_place p d -> is_place p d' /\ look p d' = look p d.
Proof.
  intros Hc Ht Hp0 E Hp. destruct o as [i ins]. cbn [op_id op_instr] in *.
  assert (forall f, (forall n r, f n = Some r -> exists n', r = [n'] /\ v_info n' = v_info n /\ v_kids n' = v_kids n) ->
    v_by_id i f d = Some d' -> is_place p d' /\ look p d' = look p d) as Simple.
  { intros f Hf Eb. apply (by_id_look i f p d d' Eb Hp).
    - intros n _. destruct (f n) as [r|] eqn:Ef; [|exists n; auto]. destruct (Hf n r Ef) as (n' & -> & _). eauto.
    - intros q1 q2 n _ _ _ _ r Ef. destruct (Hf n r Ef) as (n' & -> & H1 & H2). exists n'. rewrite H2. auto. }
  unfold calm in Hc. unfold v_exec in E.
  destruct ins as [c|c|c|k v|k|v|v|n|n q| | |n ev|e h|]; cbn [js_op js_ty js_el js_payload op_ty op_payload op_instr op_id] in *; cbv zeta in E;
    repeat match type of E with context [str_eqb ?a ?b] => let x := eval vm_compute in (str_eqb a b) in change (str_eqb a b) with x in E end; cbv iota in E; try contradiction;
    try (injection E as <-; split; [exact Hp|reflexivity]).
  - (* setAttr *)
    apply Simple in E; [exact E|]. intros [s|t a ty l kids] r; [discriminate|]. rewrite part0_cut, cut_app. destruct (valid_name (cut k)); [|discriminate]. intros [= <-].
    eexists. split; [reflexivity|]. split; [|reflexivity]. unfold v_info. cbn [v_tag v_id v_typed]. rewrite get_insert.
    destruct (str_eqb attr_id (to_lower (cut k))) eqn:Ek; [apply str_eqb_eq in Ek; congruence|reflexivity].
  - (* removeAttr *)
    apply Simple in E; [exact E|]. intros [s|t a ty l kids] r; [discriminate|]. intros [= <-]. eexists. split; [reflexivity|]. split; [|reflexivity].
    unfold v_info. cbn [v_tag v_id v_typed]. rewrite get_remove. destruct (str_eqb attr_id (to_lower k)) eqn:Ek; [apply str_eqb_eq in Ek; congruence|reflexivity].
  - (* setText *)
    apply (by_id_look _ _ p d d' E Hp).
    + intros [s|t a ty l kids] H; [discriminate|eauto].
    + intros q1 q2 n -> Hq Hn Hi r Hr. destruct q2 as [|j q2].
      * destruct n as [s|t a ty l kids]; [discriminate|]. injection Hr as <-. eexists. split; [reflexivity|]. split; [reflexivity|]. intros _. split; [apply is_place_nil|reflexivity].
      * exfalso. specialize (Ht v eq_refl). unfold not_above in Ht. rewrite Forall_forall in Ht. rewrite (Ht n) in Hi; [discriminate|]. apply ancestor_in; auto. discriminate.
  - (* createTag *)
    destruct (part 0 _) as [name|]; [|discriminate]. destruct (make_el name i) as [el|]; [|discriminate].
    assert (forall q0, v_by_id q0 (fun n => match n with VElem t a ty l kids => Some [VElem t a ty l (kids ++ [fresh el])] | VText _ => None end) d = Some d' -> is_place p d' /\ look p d' = look p d) as Below.
    { intros q0 E0. apply (by_id_look _ _ p d d' E0 Hp).
      - intros [s|t a ty l kids] H; [discriminate|eauto].
      - intros q1 q2 x -> Hq Hn Hi r Hr. destruct x as [s|t a ty l kids]; [discriminate|]. injection Hr as <-. eexists. split; [reflexivity|]. split; [reflexivity|]. cbn [v_kids]. intros H2.
        destruct q2 as [|j q2]; [split; [apply is_place_nil|reflexivity]|]. apply look_app; [exact H2|discriminate]. }
    destruct (part 1 _) as [[|b q']|]; [injection E as <-; now apply look_app|exact (Below _ E)|injection E as <-; now apply look_app].
  - (* removeListeners *)
    apply (by_id_look _ _ p d d' E Hp).
    + intros n _. eauto.
    + intros q1 q2 n -> Hq Hn Hi r [= <-]. eexists. split; [reflexivity|]. split; [apply info_clone|]. rewrite kids_clone. apply look_clone.
  - (* attachListener *)
    apply Simple in E; [exact E|]. intros [s|t a ty l kids] r; [discriminate|]. destruct (part 0 _); [|discriminate]. destruct (part 1 _); [|discriminate]. intros [= <-].
    eexists. split; [reflexivity|]. split; reflexivity.
Qed.
