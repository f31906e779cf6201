(** The wire and the browser: C57-C59, C71. *)
From Verif Require InnerHtml.
From Verif Require Import Base HMap Num Json DomModel DomSpec DomProofs DomProofs2 DomProofs3 DomProofs4 HtmlModel ClientModel ClientSpec ClientProofs ClientProofs2.
From Coq Require Import Lia.

(** ** C57. Every message is parsed back into one instruction per instruction sent, for the same element
    and of the same type. *)
Theorem C57_wire_framing : forall os, exists js, read_message (wire os) = Some js /\
  Forall2 (fun o j => js_el j = op_id o /\ js_ty j = instruction_word (op_instr o)) os js.
Proof.
  intros os. exists (map js_op os). split; [apply read_wire|]. induction os as [|[i o] os IH]; constructor; auto.
Qed.
Print Assumptions C57_wire_framing.
(** But the browser cuts a payload at its second "+": here it sets the attribute to "1". *)
Theorem C57_wire_refuted : exists os js, read_message (wire os) = Some js /\
  ~ Forall2 (fun o j => received j = arguments (op_instr o)) os js.
Proof.
  exists [Op (bs "0") (SetAttribute (bs "value") (bs "1+1=2"))]. eexists. split; [vm_compute; reflexivity|].
  intros H. inversion H as [|? ? ? ? E]; subst. vm_compute in E. discriminate.
Qed.
Print Assumptions C57_wire_refuted.
(** Without "+" in the glued parts the arguments arrive as they were. *)
Theorem C57_wire_partial : forall os, Forall (fun o => wire_safe (op_instr o)) os ->
  exists js, read_message (wire os) = Some js /\
  Forall2 (fun o j => js_el j = op_id o /\ js_ty j = instruction_word (op_instr o) /\ received j = arguments (op_instr o)) os js.
Proof.
  intros os H. destruct (wire_ok os H) as (js & E & F). exists js. split; [exact E|].
  clear E. induction F as [|[i o] j os js (H1 & H2 & H3) F IH]; constructor; [|inversion H; auto]. split; [exact H1|]. split; [|exact H3]. rewrite H2. now destruct o.
Qed.
Print Assumptions C57_wire_partial.
(** This covers every changeset leading to a tree without "+" (text may contain it). *)
Theorem C57_diff_wire_safe_partial : forall a b os, plus_free_tree b ->
  diff a (Some b) = Some os \/ os = create_from_scratch b None -> Forall (fun o => wire_safe (op_instr o)) os.
Proof.
  intros a b os H [Ho| ->]; [now apply (wsafe_diff b H a)|]. now apply (wsafe_create b H None).
Qed.
Print Assumptions C57_diff_wire_safe_partial.
Definition tricky : str := [x22; x5c; x0a; x2f; x00] ++ bs "+" ++ [xc3; xa9].
Example C57_example : let os := [Op (bs "3") (SetText tricky); Op (bs "3") (SetAttribute (bs "k") [x22; x5c; x09])] in
  Forall (fun o => wire_safe (op_instr o)) os /\ wire os <> [] /\
  option_map (map received) (read_message (wire os)) = Some [[tricky]; [bs "k"; [x22; x5c; x09]]].
Proof.
  cbv zeta. split; [|split; [|vm_compute; reflexivity]].
  - repeat constructor; cbn; intros H; repeat (destruct H as [H|H]; [discriminate|]); exact H.
  - vm_compute. discriminate.
Qed.
Example C57_example_tree : plus_free_tree (Element 0 (bs "p") [(bs "class", bs "x")] [Listener (bs "l") (bs "click")] [] (Some (bs "a+b")) None).
Proof.
  constructor; [|constructor]. cbn. repeat constructor; cbn; intros H; repeat (destruct H as [H|H]; [discriminate|]); exact H.
Qed.

Lemma proper_wf max e : proper max e -> every (fun e => hm_wf (el_attrs e)) e.
Proof.
  intros Pa. induction e as [ai an aa al ac at_ ak IH] using element_ind2.
  pose proof (every_root _ _ Pa) as H. pose proof (every_children _ _ Pa) as Hc. constructor; [apply H|]. cbn [el_children] in *. clear -IH Hc.
  induction IH; inversion Hc; subst; constructor; auto.
Qed.

(** ** C58. In an empty document the first message builds the page, and every instruction is executed. *)
Theorem C58_first_paint : forall reparse a,
  every (fun e => hm_wf (el_attrs e)) a -> clean a -> NoDup (ids a) ->
  exists os y, diff a None = Some os /\ on_message reparse (wire os) [] = ([y], true) /\ shows y a.
Proof.
  intros reparse a W C N. destruct (browser_first_paint reparse a (conj W C) N) as (os & Ho & y & V & R). now exists os, y.
Qed.
Print Assumptions C58_first_paint.
(** For a page rendered through [into_element]. *)
Theorem C58_first_paint_rendered : forall reparse w a j, wrapped_ok w -> into_element w 0 = Some (a, j) -> clean a ->
  exists os y, diff a None = Some os /\ on_message reparse (wire os) [] = ([y], true) /\ shows y a.
Proof.
  intros reparse w a j Hw E C. apply C58_first_paint; auto.
  - pose proof (into_proper w (j - 1) 0 a j Hw E) as P. destruct (into_numbered _ _ _ _ E) as [N _]. apply numbered_range in N as (R & _).
    apply (proper_wf (j - 1)). apply P. lia.
  - destruct (into_numbered _ _ _ _ E) as [N _]. now apply numbered_range in N.
Qed.
Print Assumptions C58_first_paint_rendered.

(** Deciding [clean]. *)
Fixpoint plus_freeb (s : str) : bool := match s with [] => true | b :: s' => negb (byte_eqb b plus) && plus_freeb s' end.
Lemma plus_freeb_ok s : plus_freeb s = true -> plus_free s.
Proof.
  induction s as [|b s IH]; [intros _ []|]. cbn [plus_freeb]. intros H. apply andb_true_iff in H as [H1 H2]. intros [->|Hi]; [rewrite byte_eqb_refl in H1; discriminate|].
  now apply IH.
Qed.
Definition clean_nameb (s : str) : bool := valid_name s && str_eqb (to_lower s) s.
Lemma clean_nameb_ok s : clean_nameb s = true -> clean_name s.
Proof. unfold clean_nameb. intros H. apply andb_true_iff in H as [H1 H2]. apply str_eqb_eq in H2. now split. Qed.
Definition cleanb (e : element) : bool := forallb (fun e =>
  clean_nameb (el_name e) && forallb (fun kv => clean_nameb (fst kv) && negb (str_eqb (fst kv) attr_id) && plus_freeb (snd kv)) (el_attrs e)
  && forallb (fun l => plus_freeb (l_name l) && plus_freeb (l_event l)) (el_listeners e)) (nodes e).
Lemma cleanb_ok e : cleanb e = true -> clean e.
Proof.
  unfold cleanb. intros H. apply every_nodes. rewrite forallb_forall in H. apply Forall_forall. intros x Hx. apply H in Hx.
  apply andb_true_iff in Hx as [Hx H3]. apply andb_true_iff in Hx as [H1 H2]. rewrite forallb_forall in H2, H3. split; [now apply clean_nameb_ok|]. split.
  - apply Forall_forall. intros kv Hk. apply H2 in Hk. apply andb_true_iff in Hk as [Hk K3]. apply andb_true_iff in Hk as [K1 K2].
    split; [now apply clean_nameb_ok|]. split; [|now apply plus_freeb_ok]. intros E. apply str_eqb_eq in E. rewrite E in K2. discriminate.
  - apply Forall_forall. intros l Hl. apply H3 in Hl. apply andb_true_iff in Hl as [L1 L2]. split; now apply plus_freeb_ok.
Qed.

Definition form_page (greeting : str) : wrapped :=
  add_children [add_listener (Listener (bs "msg") (bs "input")) (wrap KInput [(bs "type", bs "text"); (bs "class", bs "wide")] []);
                add_listener (Listener (bs "send") (bs "click")) (wrap KP [] greeting)] (wrap KDiv [] []).
Example C58_example : exists a j y, into_element (form_page (bs "1+1")) 0 = Some (a, j) /\ wrapped_ok (form_page (bs "1+1")) /\ clean a /\
  on_message InnerHtml.plain_browser (wire (create_from_scratch a None)) [] = ([y], true) /\ length (create_from_scratch a None) = 8.
Proof.
  eexists _, _, _. split; [vm_compute; reflexivity|]. split; [|split; [apply cleanb_ok; vm_compute; reflexivity|]].
  - repeat constructor; cbn; intuition discriminate.
  - split; vm_compute; reflexivity.
Qed.

(** ** C59. What goes wrong in the browser, although the same changesets are right on the server
    ([safe a b]): removing a text does nothing; changing a text deletes the children; changing the
    listeners of a node removes those of its descendants; renaming a node removes its listeners; and a
    "+" cuts off an attribute value. *)
Definition out_of_sync (a b : element) : Prop :=
  every (fun e => hm_wf (el_attrs e)) a /\ every (fun e => hm_wf (el_attrs e)) b /\ NoDup (ids a) /\ NoDup (ids b) /\ safe a b /\
  exists os, diff a (Some b) = Some os /\
    forall reparse, exists x, shows x a /\ forall y, fst (on_message reparse (wire os) [x]) = [y] -> ~ shows y b.
Definition kid (ls : list listener) : element := Element 1 (bs "a") [] ls [] None None.
Definition bare (i : N) (n : str) (t : option str) (ls : list listener) (cs : list element) : element := Element i n [] ls cs t None.
Lemma nodupN_ok (l : list N) : (fix go l := match l with [] => true | x :: l' => negb (existsb (N.eqb x) l') && go l' end) l = true -> NoDup l.
Proof.
  induction l as [|x l IH]; [constructor|]. intros H. apply andb_true_iff in H as [H1 H2]. constructor; [|now apply IH].
  intros Hi. assert (existsb (N.eqb x) l = true) as E by (apply existsb_exists; exists x; split; [exact Hi|apply N.eqb_refl]). rewrite E in H1. discriminate.
Qed.
Ltac wf_tac := first [apply (proper_wf 100); apply properb_ok; vm_compute; reflexivity | apply nodupN_ok; vm_compute; reflexivity].
(** The page as the browser shows it. *)
Fixpoint paint (e : element) : ClientModel.node :=
  match e with
  | Element i n a l cs t k => Elem n ((attr_id, dec i) :: a) (map (fun x => (l_event x, l_name x)) l) (text_nodes (text_of t) ++ map paint cs)
  end.
Lemma paint_shows e : shows (paint e) e.
Proof.
  induction e as [i n a l cs t k IH] using element_ind2. cbn [paint]. constructor.
  - cbn [get]. now rewrite str_eqb_refl.
  - intros q Hq. cbn [get]. destruct (str_eqb q attr_id) eqn:E; [apply str_eqb_eq in E; congruence|reflexivity].
  - induction IH; cbn [map]; constructor; auto.
Qed.
Ltac no_show := intros reparse; eexists; split; [apply paint_shows|]; intros y Hy Hs; vm_compute in Hy; injection Hy as <-;
  inversion Hs as [? ? ? ? ? ? ? m kids H1 H2 H3]; subst.
Theorem C59_browser_updates_refuted :
  out_of_sync (bare 0 (bs "p") (Some (bs "x")) [] []) (bare 0 (bs "p") None [] []) /\
  out_of_sync (bare 0 (bs "p") (Some (bs "x")) [] [kid []]) (bare 0 (bs "p") (Some (bs "y")) [] [kid []]) /\
  out_of_sync (bare 0 (bs "p") None [] [kid [Listener (bs "l") (bs "click")]])
              (bare 0 (bs "p") None [Listener (bs "m") (bs "input")] [kid [Listener (bs "l") (bs "click")]]) /\
  out_of_sync (bare 0 (bs "p") None [Listener (bs "l") (bs "click")] []) (bare 0 (bs "h1") None [Listener (bs "l") (bs "click")] []) /\
  out_of_sync (Element 0 (bs "p") [] [] [] None None) (Element 0 (bs "p") [(bs "title", bs "1+1")] [] [] None None).
Proof.
  assert (forall a b, el_id a = el_id b -> el_children a = [] -> el_children b = [] -> safe a b) as Sleaf.
  { intros a b Hi Ca Cb. apply safe_plain; rewrite ?Ca, ?Cb; cbn; auto; constructor. }
  assert (forall a b c, el_id a = 0%N -> el_id b = 0%N -> el_id c = 1%N -> ids c = [1%N] -> el_key c = None -> el_children c = [] -> el_children a = [c] -> el_children b = [c] -> safe a b) as Sone.
  { intros a b c Ha Hb Hc Ic Kc Cc Ca Cb. apply safe_plain; rewrite ?Ca, ?Cb; cbn; auto.
    - left. congruence.
    - unfold all_keyed. rewrite Ca. cbn. unfold is_keyed. rewrite Kc. discriminate.
    - rewrite Ha. apply ks_pair; [now apply Sleaf| |constructor]. intros i Hi. rewrite Ic in Hi. cbn.
      split; [|tauto]. apply in_app_or in Hi as [[<-|[]]|Hi]; [discriminate|]. destruct c; cbn in *. subst. cbn in Hi. contradiction. }
  assert (forall a b, every (fun e => hm_wf (el_attrs e)) a -> every (fun e => hm_wf (el_attrs e)) b -> NoDup (ids a) -> NoDup (ids b) -> safe a b ->
     (exists os, diff a (Some b) = Some os /\
      forall reparse, exists x, shows x a /\ forall y, fst (on_message reparse (wire os) [x]) = [y] -> ~ shows y b) -> out_of_sync a b) as Hout.
  { unfold out_of_sync. tauto. }
  split; [|split; [|split; [|split]]]; apply Hout; try (wf_tac; fail); try (now apply Sleaf); try (apply (Sone _ _ (kid [])); reflexivity);
    try (apply (Sone _ _ (kid [Listener (bs "l") (bs "click")])); reflexivity);
    (eexists; split; [vm_compute; reflexivity|]).
  - no_show. cbn in *. subst. inversion H3.
  - no_show. inversion H3; subst. discriminate.
  - no_show. cbn in *. subst. inversion H3 as [|? ? ? ? K]; subst. inversion K; subst; discriminate.
  - no_show. discriminate.
  - no_show. specialize (H2 (bs "title")). vm_compute in H2. enough (Some (bs "1") = Some (bs "1+1")) by discriminate. apply H2. discriminate.
Qed.
Print Assumptions C59_browser_updates_refuted.
(** Where the browser can do what is asked ([browser_pair] at every pair of nodes matched up) and the
    names and values are clean, an id-safe edit arrives: the document goes from showing the old tree to
    showing the new one, listeners included, and no instruction throws. *)
Theorem C59_browser_updates_partial : forall reparse a b, InnerHtml.standard reparse ->
  every (fun e => hm_wf (el_attrs e)) a -> every (fun e => hm_wf (el_attrs e)) b -> clean a -> clean b ->
  safe_with browser_pair a b ->
  exists os, diff a (Some b) = Some os /\
    forall x, shows x a -> exists y, on_message reparse (wire os) [x] = ([y], true) /\ shows y b.
Proof.
  intros reparse a b Hr Wa Wb Ca Cb Hs. destruct (browser_updates reparse Hr a b Hs (conj Wa Ca) (conj Wb Cb)) as (os & Ho & H).
  exists os. split; [exact Ho|]. intros x V. destruct (H x V) as (y & Vy & R). now exists y.
Qed.
Print Assumptions C59_browser_updates_partial.
(** For two renders through [into_element]. *)
Theorem C59_browser_rerenders_partial : forall reparse w1 w2 a b j j', InnerHtml.standard reparse ->
  wrapped_ok w1 -> wrapped_ok w2 -> into_element w1 0 = Some (a, j) -> into_element w2 0 = Some (b, j') -> clean a -> clean b ->
  fits a b -> matched browser_pair a b ->
  exists os, diff a (Some b) = Some os /\
    forall x, shows x a -> exists y, on_message reparse (wire os) [x] = ([y], true) /\ shows y b.
Proof.
  intros reparse w1 w2 a b j j' Hr O1 O2 E1 E2 C1 C2 Hf Hm.
  destruct (into_numbered _ _ _ _ E1) as [N1 U1]. destruct (into_numbered _ _ _ _ E2) as [N2 U2].
  pose proof (numbered_range _ _ _ N1) as (R1 & _). pose proof (numbered_range _ _ _ N2) as (R2 & _).
  apply C59_browser_updates_partial; auto.
  - apply (proper_wf (j - 1)). apply (into_proper w1 (j - 1) 0 a j); auto. lia.
  - apply (proper_wf (j' - 1)). apply (into_proper w2 (j' - 1) 0 b j'); auto. lia.
  - now apply (fits_safe_with browser_pair b a 0 j 0 j').
Qed.
Print Assumptions C59_browser_rerenders_partial.
Definition todo (items : list str) : wrapped :=
  add_children (map (fun t => wrap KP [] t) items)
    (add_child (add_listener (Listener (bs "msg") (bs "input")) (wrap KInput [(bs "value", concat items)] [])) (wrap KDiv [] [])).
Example C59_example : exists a b j j', into_element (todo [bs "a"; bs "b"]) 0 = Some (a, j) /\ into_element (todo [bs "c+"; bs "b"; bs "d"]) 0 = Some (b, j') /\
  wrapped_ok (todo [bs "a"; bs "b"]) /\ fits a b /\ matched browser_pair a b /\ clean a /\
  exists os y, diff a (Some b) = Some os /\ length os = 4 /\ on_message InnerHtml.plain_browser (wire os) [paint a] = ([y], true).
Proof.
  eexists _, _, _, _. split; [vm_compute; reflexivity|]. split; [vm_compute; reflexivity|]. split; [|split; [|split; [|split]]].
  - repeat constructor; cbn; intuition discriminate.
  - repeat first [apply FitsSame; [reflexivity|] | constructor].
  - assert (forall a b, el_name a = el_name b -> el_text a = el_text b \/ (exists v, el_text b = Some v) /\ el_children a = [] -> el_listeners a = el_listeners b -> browser_pair a b) as H.
    { intros a b H1 H2 H3. split; [now left|]. split; [|now left]. destruct H2 as [H2|[[v H2] H4]]; [now left|right; left; now exists v]. }
    repeat first [constructor; [apply H; cbn; eauto; right; eauto|] | constructor].
  - apply cleanb_ok. vm_compute. reflexivity.
  - eexists _, _. split; [vm_compute; reflexivity|]. split; vm_compute; reflexivity.
Qed.

(** Renaming with content: a heading becomes a label, a [div] with an input in it a [form]. *)
Definition tricky_text : str := bs "a<b & <img src=x>".
Definition before_rename : wrapped := add_children [wrap KH2 [] tricky_text; add_child (wrap KInput [(bs "value", tricky_text)] []) (wrap KDiv [] [])] (wrap KDiv [] []).
Definition after_rename : wrapped := add_children [wrap KLabel [] tricky_text; add_child (wrap KInput [(bs "value", tricky_text)] []) (wrap KForm [] [])] (wrap KDiv [] []).
Example C59_rename_example : exists a b j j', into_element before_rename 0 = Some (a, j) /\ into_element after_rename 0 = Some (b, j') /\
  wrapped_ok before_rename /\ wrapped_ok after_rename /\ fits a b /\ matched browser_pair a b /\ clean a /\ clean b /\
  exists os y, diff a (Some b) = Some os /\ map op_instr os = [SetTagName (bs "label"); SetTagName (bs "form")] /\
    on_message InnerHtml.plain_browser (wire os) [paint a] = ([y], true).
Proof.
  eexists _, _, _, _. split; [vm_compute; reflexivity|]. split; [vm_compute; reflexivity|]. split; [|split; [|split; [|split; [|split; [|split]]]]].
  - repeat constructor; cbn; intuition discriminate.
  - repeat constructor; cbn; intuition discriminate.
  - repeat first [apply FitsSame; [reflexivity|] | constructor].
  - assert (forall a b, el_name a = el_name b -> el_text a = el_text b -> el_listeners a = el_listeners b -> browser_pair a b) as H.
    { intros a b H1 H2 H3. split; [now left|]. split; now left. }
    assert (forall a b, el_name b <> bs "html" -> el_listeners a = [] -> Forall quiet (el_children a) -> survives (el_name a) (el_name b) (el_text a) (el_children a) ->
      el_text a = el_text b -> el_listeners a = el_listeners b -> browser_pair a b) as G.
    { intros a b H1 H2 H3 H4 H5 H6. split; [right; split; [exact H1|]; split; [now left|]; right; now split|]. split; now left. }
    assert (forall s, existsb (fun b => byte_eqb b x00 || byte_eqb b x0d) s = false -> InnerHtml.plain_chars s) as Pc.
    { intros s Hs. split; intros Hin; enough (existsb (fun b => byte_eqb b x00 || byte_eqb b x0d) s = true) by congruence; apply existsb_exists; eexists; split; eauto. }
    constructor; [now apply H|]. constructor; [|constructor; [|constructor]].
    + constructor; [|constructor]. apply G; cbn [el_name el_listeners el_children el_text]; try reflexivity; try discriminate; [constructor|].
      repeat split; try discriminate; try constructor; apply Pc; reflexivity.
    + constructor; [|constructor; [now constructor; [apply H|constructor]|constructor]]. apply G; cbn [el_name el_listeners el_children el_text]; try reflexivity; try discriminate.
      * constructor; [|constructor]. constructor; [reflexivity|constructor].
      * split; [discriminate|]. split; [reflexivity|]. split; [discriminate|]. split; [now apply Pc|]. constructor; [|constructor]. cbn [nestable].
        split; [reflexivity|]. split; [constructor; [now apply Pc|constructor]|]. split; [now apply Pc|]. split; [intros _; split; reflexivity|exact Logic.I].
  - apply cleanb_ok. vm_compute. reflexivity.
  - apply cleanb_ok. vm_compute. reflexivity.
  - eexists _, _. split; [vm_compute; reflexivity|]. split; vm_compute; reflexivity.
Qed.

(** ** C71: an attribute called id replaces the id liveview addresses the element by: already on the
    first paint the children have nowhere to go and the browser throws. *)
Definition id_page : wrapped := add_child (wrap KP [] (bs "x")) (wrap KDiv [(bs "id", bs "main")] []).
Theorem C71_id_attribute_refuted : exists a j, into_element id_page 0 = Some (a, j) /\ wrapped_ok id_page /\
  forall reparse, exists doc, on_message reparse (wire (create_from_scratch a None)) [] = (doc, false) /\
    forall y, doc = [y] -> ~ shows y a.
Proof.
  eexists _, _. split; [vm_compute; reflexivity|]. split; [repeat constructor; cbn; intuition discriminate|].
  intros reparse. eexists. split; [vm_compute; reflexivity|]. intros y [= <-] Hs. inversion Hs as [? ? ? ? ? ? ? m kids H1 H2 H3]; subst. vm_compute in H1. discriminate.
Qed.
Print Assumptions C71_id_attribute_refuted.
(** Pages without such an attribute are painted (C58) and updated (C59). *)
Theorem C71_no_id_attribute_partial : forall reparse w a j, wrapped_ok w -> into_element w 0 = Some (a, j) -> clean a ->
  exists os y, diff a None = Some os /\ on_message reparse (wire os) [] = ([y], true) /\ shows y a.
Proof. exact C58_first_paint_rendered. Qed.
Print Assumptions C71_no_id_attribute_partial.
